(** SecBlockSpec: what each operation may do to the elements of a block
    (secblock.h, documentation of New, CleanNew, Grow, CleanGrow, resize,
    Assign, Append).  Elements that are not initialized may be anything. *)
From Coq Require Import ZArith List Arith.
From Verif Require Import Base SecBlockModel.
Import ListNotations.

Definition may (o : op) (c c' : list Z) : Prop :=
  match o with
  | New n => length c' = n
  | CleanNew n => c' = repeat 0%Z n
  | Grow n => if n <=? length c then c' = c
              else exists more, c' = c ++ more /\ length c' = n
  | CleanGrow n => c' = c ++ repeat 0%Z (n - length c)
  | Resize n => length c' = n /\ firstn (length c) c' = firstn n c
  | Assign l => c' = l
  | Append l => c' = c ++ l
  | AppendSelf => c' = c ++ c
  | SetMark _ => c' = c
  | Write i v => c' = upd i v c
  end.

(** The operations that keep the old elements until the new ones are there. *)
Definition preserving (o : op) : Prop :=
  match o with New _ | CleanNew _ | Assign _ => False | _ => True end.

Definition all_zero (l : list Z) : Prop := Forall (fun x => x = 0%Z) l.
Definition is_set_mark (o : op) : Prop := match o with SetMark _ => True | _ => False end.
