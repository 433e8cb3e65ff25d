(** * The pointers in the lists returned by GetArrayOfT

    ArrayModel.v gives what the pointers of these lists point to, this file the pointers
    themselves. *)
From Coq Require Import Ascii String List NArith ZArith Bool.
From Verif Require Import GoStr GoNum GoFloat Heap Common ValueModel ArrayModel MapModel GetterModel PtrModel.
Import ListNotations.

(** The loop, Array.go:487-499 and the same in the other methods: a nil element gives a
    nil pointer, the getter of another element the pointer or errors. *)
Fixpoint collect_ptrs (t : stype) (X : ext) (l : list (option loc)) : M (list (option loc) * list err) :=
  match l with
  | [] => ret ([], [])
  | None :: u => q <- collect_ptrs t X u ;; ret (None :: fst q, snd q)
  | Some v :: u =>
      r <- value_ptr t X v ;;
      q <- collect_ptrs t X u ;;
      ret (match r with
           | GVal x => (x :: fst q, snd q)
           | GErr e => (fst q, e ++ snd q)
           end)
  end.

(** GetArrayOfInt8 .. GetArrayOfUInt64, Array.go:479-694; GetArrayOfBool, 911-937;
    GetArrayOfString, 965-991; GetArrayOfFloat32/64, 1019-1045, 1076-1102.
    GetArrayOfInt and GetArrayOfUInt are never assigned. *)
Definition arr_ptrs (t : stype) (X : ext) (a : loc) : M (gres (list (option loc))) :=
  match t with
  | TyInt KInt | TyInt KUInt => mpanic
  | _ => l <- mlift (fun h => rd_arr h a) ;; q <- collect_ptrs t X l ;; ret (finish q)
  end.

(** The same methods of Map, Map.go:618-698,706-714,722-739. *)
Definition map_ptrs (t : stype) (X : ext) (m : loc) (k : str) : M (gres (option (list (option loc)))) :=
  match t with
  | TyInt KInt | TyInt KUInt => mpanic
  | _ =>
      r <- mlift (fun h => map_GetArray X h m k) ;;
      match r with
      | GErr e => ret (GErr e)
      | GVal None => ret (GVal None)
      | GVal (Some a) => q <- arr_ptrs t X a ;; ret (match q with GVal l => GVal (Some l) | GErr e => GErr e end)
      end
  end.
