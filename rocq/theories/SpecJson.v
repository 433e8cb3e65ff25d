(** * Specification: the grammar of RFC 8259

    Over the bytes of a UTF-8 text.  Independent of the model. *)
From Coq Require Import Ascii String List NArith ZArith Bool.
From Verif Require Import GoStr SpecUtf8 GoNum GoFloat Heap SpecDoc SpecNum.
Import ListNotations.

(** ws = *( %x20 / %x09 / %x0A / %x0D ) *)
Definition ws (s : str) : Prop := Forall (fun c => In (N_of_ascii c) [32; 9; 10; 13]%N) s.

(** number = [ minus ] int [ frac ] [ exp ] *)
Definition json_int (s : str) : Prop :=
  s = lit "0" \/ exists c t, s = c :: t /\ is_digit c /\ c <> "0"%char /\ Forall is_digit t.
Definition json_frac (s : str) : Prop := s = [] \/ exists t, s = "."%char :: t /\ t <> [] /\ Forall is_digit t.
Definition json_exp (s : str) : Prop :=
  s = [] \/ exists c p t, s = c :: p ++ t /\ (c = "e"%char \/ c = "E"%char)
              /\ (p = [] \/ p = lit "+" \/ p = lit "-") /\ t <> [] /\ Forall is_digit t.
Definition json_number (s : str) : Prop :=
  exists m i f e, s = m ++ i ++ f ++ e /\ (m = [] \/ m = lit "-") /\ json_int i /\ json_frac f /\ json_exp e.

(** char = unescaped / escape ( %x22 / %x5C / %x2F / %x62 / %x66 / %x6E / %x72 / %x74 / %x75 4HEXDIG ),
    unescaped = %x20-21 / %x23-5B / %x5D-10FFFF *)
Definition hexdig (c : ascii) : Prop := In c (lit "0123456789abcdefABCDEF").
Definition json_char (s : str) : Prop :=
  (exists c, s = utf8 c /\ scalar_value c /\ (32 <= c)%N /\ c <> 34%N /\ c <> 92%N)
  \/ (exists c, s = [ascii_of_N 92; c] /\ In c (lit """\/bfnrt"))
  \/ (exists h, s = [ascii_of_N 92; "u"%char] ++ h /\ length h = 4 /\ Forall hexdig h).
Definition json_string (s : str) : Prop :=
  exists l, s = lit """" ++ concat l ++ lit """" /\ Forall json_char l.

Inductive json_value : str -> Prop :=
| jv_false : json_value (lit "false")
| jv_null : json_value (lit "null")
| jv_true : json_value (lit "true")
| jv_number s : json_number s -> json_value s
| jv_string s : json_string s -> json_value s
| jv_array0 b : ws b -> json_value (lit "[" ++ b ++ lit "]")
| jv_array l : json_elements l -> json_value (lit "[" ++ l ++ lit "]")
| jv_object0 b : ws b -> json_value (lit "{" ++ b ++ lit "}")
| jv_object l : json_members l -> json_value (lit "{" ++ l ++ lit "}")
with json_elements : str -> Prop :=
| je_last a v b : ws a -> json_value v -> ws b -> json_elements (a ++ v ++ b)
| je_more a v b l :
    ws a -> json_value v -> ws b -> json_elements l -> json_elements (a ++ v ++ b ++ lit "," ++ l)
with json_members : str -> Prop :=
| jm_last a k b c v d :
    ws a -> json_string k -> ws b -> ws c -> json_value v -> ws d ->
    json_members (a ++ k ++ b ++ lit ":" ++ c ++ v ++ d)
| jm_more a k b c v d l :
    ws a -> json_string k -> ws b -> ws c -> json_value v -> ws d -> json_members l ->
    json_members (a ++ k ++ b ++ lit ":" ++ c ++ v ++ d ++ lit "," ++ l).

(** JSON-text = ws value ws *)
Definition json_text (s : str) : Prop := exists a v b, s = a ++ v ++ b /\ ws a /\ json_value v /\ ws b.

(** Strings that are UTF-8 texts without control characters and backslashes. *)
Definition clean (s : str) : Prop :=
  exists l, s = concat (map utf8 l) /\ Forall (fun c => scalar_value c /\ (32 <= c)%N /\ c <> 92%N) l.

(** Documents with clean strings and keys, and with finite floats. *)
Inductive valid : doc -> Prop :=
| vd_null : valid DNull
| vd_bool b : valid (DScal (SBool b))
| vd_int k z : valid (DScal (SInt k z))
| vd_flt k neg m e : valid (DScal (SFlt k (FFin neg m e)))
| vd_str t : clean t -> valid (DScal (SStr t))
| vd_err t : clean t -> valid (DErr t)
| vd_texts l : Forall clean l -> valid (DTexts l)
| vd_arr l : Forall valid l -> valid (DArr l)
| vd_map l : Forall (fun kd => clean (fst kd) /\ valid (snd kd)) l -> valid (DMap l).
