(** * Specification: object texts inside other texts

    In terms of the reader of SpecPanic.v, which keeps no documents. *)
From Coq Require Import Ascii String List NArith Bool.
From Verif Require Import GoStr SpecDict SpecDoc SpecText SpecRender SpecPanic.
Import ListNotations.

(** The reader after a text; [None]: panic. *)
Fixpoint read_all (prev : option ascii) (s : str) (r : reading) : option reading :=
  match s with
  | [] => Some r
  | b :: t =>
      let q := Ascii.eqb b c_dq
               && match prev with Some p => negb (Ascii.eqb p c_bs) | None => true end in
      match read_byte q (if q then negb (r_quoted r) else r_quoted r) b r with
      | None => None
      | Some r' => read_all (Some b) t r'
      end
  end.

(** The same, but stopping ([None]) where a byte follows after everything was closed. *)
Fixpoint read_open (prev : option ascii) (s : str) (r : reading) : option reading :=
  match s with
  | [] => Some r
  | b :: t =>
      let q := Ascii.eqb b c_dq
               && match prev with Some p => negb (Ascii.eqb p c_bs) | None => true end in
      match r_open r with
      | [] => None
      | _ => match read_byte q (if q then negb (r_quoted r) else r_quoted r) b r with
             | None => None
             | Some r' => read_open (Some b) t r'
             end
      end
  end.

(** The object opened by the first byte is closed by the last byte and not before. *)
Definition whole (s : str) : Prop :=
  exists t r, s = c_lb :: t /\ read_open (Some c_lb) t (Reading PKeys false [] [KObject]) = Some r
    /\ r_open r = [].

(** After [p] a container is open, no quotation is, and a value may begin. *)
Definition before_value (p : str) : Prop :=
  exists r, read_all None p start = Some r /\ r_open r <> [] /\ r_quoted r = false
    /\ (r_place r = PBefore \/ r_place r = PValue).

(** The object text with the given keys and texts, and the text of an array. *)
Definition object_text (l : list (str * str)) : str :=
  [c_lb] ++ commas (map (fun ks => ([c_dq] ++ fst ks ++ [c_dq]) ++ [c_col] ++ snd ks) l) ++ [c_rb].
Definition array_text (l : list str) : str := [c_ls] ++ commas l ++ [c_rs].

(** The documents put under the keys one after the other; the bytes of the keys are taken as
    characters. *)
Definition put_all (l : list (str * str)) (ds : list doc) : list (str * doc) :=
  fold_left (fun m kd => dict_set m (fst kd) (snd kd)) (combine (map (fun ks => latin1 (fst ks)) l) ds) [].
