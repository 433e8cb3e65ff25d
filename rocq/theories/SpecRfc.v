(** * Specification: what an RFC 8259 text says, and when a document agrees with it

    Independent of the model, except that [rejected] and [misread] are about Parse. *)
From Coq Require Import Ascii String List NArith ZArith Bool.
From Verif Require Import GoStr GoNum GoFloat Heap Common ValueModel ArrayModel MapModel JsonModel ParserModel Reach
  SpecDict SpecNum SpecFloat SpecUtf8 SpecDoc SpecText SpecToken SpecParse SpecJson.
Import ListNotations.

(** The values of the grammar; numbers and strings as written, strings without the
    quotation marks around them. *)
Inductive jval :=
| VNull
| VBool (b : bool)
| VNumber (s : str)
| VString (b : str)
| VArray (l : list jval)
| VObject (l : list (str * jval)).

(** The grammar of SpecJson, with the value that is read. *)
Inductive says_value : str -> jval -> Prop :=
| sv_false : says_value (lit "false") (VBool false)
| sv_null : says_value (lit "null") VNull
| sv_true : says_value (lit "true") (VBool true)
| sv_number s : json_number s -> says_value s (VNumber s)
| sv_string b : json_string (lit """" ++ b ++ lit """") -> says_value (lit """" ++ b ++ lit """") (VString b)
| sv_array0 b : ws b -> says_value (lit "[" ++ b ++ lit "]") (VArray [])
| sv_array s l : says_elements s l -> says_value (lit "[" ++ s ++ lit "]") (VArray l)
| sv_object0 b : ws b -> says_value (lit "{" ++ b ++ lit "}") (VObject [])
| sv_object s l : says_members s l -> says_value (lit "{" ++ s ++ lit "}") (VObject l)
with says_elements : str -> list jval -> Prop :=
| se_last a s v b : ws a -> says_value s v -> ws b -> says_elements (a ++ s ++ b) [v]
| se_more a s v b t l :
    ws a -> says_value s v -> ws b -> says_elements t l -> says_elements (a ++ s ++ b ++ lit "," ++ t) (v :: l)
with says_members : str -> list (str * jval) -> Prop :=
| sm_last a k b c s v d :
    ws a -> json_string (lit """" ++ k ++ lit """") -> ws b -> ws c -> says_value s v -> ws d ->
    says_members (a ++ (lit """" ++ k ++ lit """") ++ b ++ lit ":" ++ c ++ s ++ d) [(k, v)]
| sm_more a k b c s v d t l :
    ws a -> json_string (lit """" ++ k ++ lit """") -> ws b -> ws c -> says_value s v -> ws d -> says_members t l ->
    says_members (a ++ (lit """" ++ k ++ lit """") ++ b ++ lit ":" ++ c ++ s ++ d ++ lit "," ++ t) ((k, v) :: l).

(** The numbers, the strings (keys included) and the keys of arrays and objects in it. *)
Fixpoint numbers (v : jval) : list str :=
  match v with
  | VNumber s => [s]
  | VArray l => flat_map numbers l
  | VObject l => flat_map (fun kv => numbers (snd kv)) l
  | _ => []
  end.
Fixpoint strings (v : jval) : list str :=
  match v with
  | VString b => [b]
  | VArray l => flat_map strings l
  | VObject l => flat_map (fun kv => fst kv :: strings (snd kv)) l
  | _ => []
  end.
Definition container (v : jval) : bool := match v with VArray _ | VObject _ => true | _ => false end.
Fixpoint container_keys (v : jval) : list str :=
  match v with
  | VArray l => flat_map container_keys l
  | VObject l => flat_map (fun kv => (if container (snd kv) then [fst kv] else []) ++ container_keys (snd kv)) l
  | _ => []
  end.

(** The text does not end in a backslash. *)
Definition closes (b : str) : Prop := forall u, b <> u ++ [c_bs].

(** ** Numbers *)

(** Integers in the range of int64 and uint64, and numbers with a fraction and without
    a negative exponent that do not overflow float64. *)
Definition readable (s : str) : Prop :=
  (exists neg i, s = sign neg ++ i /\ json_int i /\ if neg : bool then (decimal i <= 2 ^ 63)%Z else (decimal i < 2 ^ 64)%Z)
  \/ (exists neg u n q, s = sign neg ++ u /\ fraction u n q /\ ~ overflows F64 n q).

(** An integer is kept; any other number becomes the nearest float32, or the nearest
    float64 if it overflows float32. *)
Definition number_agrees (s : str) (d : doc) : Prop :=
  (exists neg i k, s = sign neg ++ i /\ json_int i
     /\ d = DScal (SInt k (if neg : bool then - decimal i else decimal i)%Z))
  \/ (exists neg u n q f k, s = sign neg ++ u /\ fraction u n q /\ rounds_to k neg n q (Some f)
        /\ (k = F32 \/ rounds_to F32 neg n q None) /\ d = DScal (SFlt k f)).

(** Exponents below 10000. *)
Definition small_exponent (s : str) : Prop :=
  forall a c p ds, s = a ++ c :: p ++ ds -> c = "e"%char \/ c = "E"%char ->
    p = [] \/ p = lit "+" \/ p = lit "-" -> Forall is_digit ds -> (decimal ds < 10000)%Z.

(** ** Strings *)

(** The escapes of RFC 8259 and the bytes they stand for. *)
Definition escapes : list (ascii * N) :=
  [(c_dq, 34%N); (c_bs, 92%N); ("/"%char, 47%N); ("b"%char, 8%N); ("f"%char, 12%N); ("n"%char, 10%N); ("r"%char, 13%N); ("t"%char, 9%N)].

Definition hex_digit (c : ascii) (n : N) : Prop :=
  (n < 16)%N /\ In c [nth (N.to_nat n) (lit "0123456789abcdef") "0"%char; nth (N.to_nat n) (lit "0123456789ABCDEF") "0"%char].
Definition hex4 (s : str) (n : N) : Prop :=
  exists a b c d na nb nc nd, s = [a; b; c; d] /\ hex_digit a na /\ hex_digit b nb /\ hex_digit c nc /\ hex_digit d nd
    /\ n = (((na * 16 + nb) * 16 + nc) * 16 + nd)%N.

(** The string [t] (in UTF-8) is written [b]. *)
Inductive decodes : str -> str -> Prop :=
| dc_nil : decodes [] []
| dc_char c b t : scalar_value c -> (32 <= c)%N -> c <> 34%N -> c <> 92%N -> decodes b t -> decodes (utf8 c ++ b) (utf8 c ++ t)
| dc_escape e n b t : In (e, n) escapes -> decodes b t -> decodes (c_bs :: e :: b) (ascii_of_N n :: t)
| dc_hex s n b t : hex4 s n -> scalar_value n -> decodes b t -> decodes (c_bs :: "u"%char :: s ++ b) (utf8 n ++ t)
| dc_pair s1 n1 s2 n2 b t :
    hex4 s1 n1 -> (55296 <= n1 < 56320)%N -> hex4 s2 n2 -> (56320 <= n2 < 57344)%N -> decodes b t ->
    decodes (c_bs :: "u"%char :: s1 ++ c_bs :: "u"%char :: s2 ++ b)
      (utf8 (65536 + (n1 - 55296) * 1024 + (n2 - 56320)) ++ t).

(** ASCII text in which quotation marks are escaped and nothing else is. *)
Inductive simple : str -> Prop :=
| si_nil : simple []
| si_char c b : (32 <= N_of_ascii c < 128)%N -> c <> c_dq -> c <> c_bs -> simple b -> simple (c :: b)
| si_quote b : simple b -> simple (c_bs :: c_dq :: b).

(** ** Values *)

(** The document has the members in order of first occurrence, each with the value
    given last. *)
Inductive agrees : jval -> doc -> Prop :=
| ag_null : agrees VNull DNull
| ag_bool b : agrees (VBool b) (DScal (SBool b))
| ag_number s d : number_agrees s d -> agrees (VNumber s) d
| ag_string b t : decodes b t -> agrees (VString b) (DScal (SStr t))
| ag_array l ds : Forall2 agrees l ds -> agrees (VArray l) (DArr ds)
| ag_object l kvs es :
    Forall2 (fun m kv => decodes (fst m) (fst kv) /\ snd m = snd kv) l kvs ->
    map fst es = first_keys (map fst kvs) ->
    (forall k v, last_of k kvs = Some v -> exists d, dict_get es k = Some d /\ agrees v d) ->
    agrees (VObject l) (DMap es).

(** ** Texts that Parse does not read as RFC 8259 does *)

(** An RFC 8259 text that Parse does not accept. *)
Definition rejected (s : str) : Prop :=
  json_text s /\ forall X h, reachable X h -> exists e h', Parse X s h = Ok (GErr e, h').
(** An RFC 8259 object for which Parse returns a map that does not hold what the text says. *)
Definition misread (s : str) : Prop :=
  exists ms d, says_value s (VObject ms) /\ (forall X h, reachable X h -> parses X h s (GVal d)) /\ ~ agrees (VObject ms) d.
