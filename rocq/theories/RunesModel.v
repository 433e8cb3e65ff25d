(** * GetRunes (/repo/json/Value.go, /repo/json/Map.go) *)
From Coq Require Import Ascii String List NArith ZArith Bool.
From Verif Require Import GoStr GoNum GoFloat Heap Common ValueModel ArrayModel MapModel.
Import ListNotations.
Local Open Scope N_scope.

(** utf8.DecodeRuneInString on a non-empty string, as the Go library's tables of first
    bytes and accept ranges give it: the code point and the number of bytes consumed
    after the first.  An invalid sequence is RuneError, 65533, and one byte. *)
Definition tail_byte (lo hi : N) (b : ascii) : bool := (lo <=? N_of_ascii b) && (N_of_ascii b <=? hi).

Definition decode_rune (a : ascii) (s : str) : N * nat :=
  let x := N_of_ascii a in
  let bad := (65533, 0%nat) in
  let two := match s with
             | b :: _ => if tail_byte 128 191 b then ((x - 192) * 64 + (N_of_ascii b - 128), 1%nat) else bad
             | _ => bad
             end in
  let three lo hi :=
    match s with
    | b :: c :: _ => if tail_byte lo hi b && tail_byte 128 191 c
                     then ((x - 224) * 4096 + (N_of_ascii b - 128) * 64 + (N_of_ascii c - 128), 2%nat) else bad
    | _ => bad
    end in
  let four lo hi :=
    match s with
    | b :: c :: d :: _ => if tail_byte lo hi b && tail_byte 128 191 c && tail_byte 128 191 d
                          then ((x - 240) * 262144 + (N_of_ascii b - 128) * 4096
                                + (N_of_ascii c - 128) * 64 + (N_of_ascii d - 128), 3%nat) else bad
    | _ => bad
    end in
  if x <? 128 then (x, 0%nat)
  else if x <? 194 then bad
  else if x <? 224 then two
  else if x =? 224 then three 160 191
  else if x =? 237 then three 128 159
  else if x <? 240 then three 128 191
  else if x =? 240 then four 144 191
  else if x <? 244 then four 128 191
  else if x =? 244 then four 128 143
  else bad.

(** [for _, r := range s]: the code points of [s]; [n] bytes of [s] belong to the code
    point decoded last. *)
Fixpoint range_runes (n : nat) (s : str) : list N :=
  match s with
  | [] => []
  | a :: t => match n with
              | S n' => range_runes n' t
              | O => let (c, w) := decode_rune a t in c :: range_runes w t
              end
  end.

(** Value.GetRunes, Value.go:885-919.  The result is given by the code points its
    pointers refer to; since the module asks for Go 1.26 (go.mod) each of them has its
    own variable. *)
Definition value_GetRunes (X : ext) (h : heap) (v : loc) : res (gres (option (list N))) :=
  i <-r rd_val h v ;;
  if iface_IsNil X i then Ok (GVal None)
  else match i with
       | IScal (SStr s) => Ok (GVal (Some (range_runes 0 s)))
       | IPtr TyStr (Some p) =>
           s <-r rd_ptr h p ;;
           match s with SStr t => Ok (GVal (Some (range_runes 0 t))) | _ => Stuck end
       | IPtr TyStr None => Ok (GErr [ENilValue])
       | _ => Ok (GErr [EType])
       end.

(** Map.GetRunes, Map.go:809-814. *)
Definition map_GetRunes (X : ext) (h : heap) (m : loc) (k : str) : res (gres (option (list N))) :=
  map_via (GVal None) (value_GetRunes X h) h m k.
