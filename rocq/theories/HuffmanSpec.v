(** HuffmanSpec: the code of RFC 1951, 3.2.2, from code lengths (0: no code).
    "All codes of a given bit length have lexicographically consecutive values,
    in the same order as the symbols they represent; shorter codes
    lexicographically precede longer codes." *)
From Coq Require Import ZArith List Bool.
From Verif Require Import Base BitioModel BitioSpec HuffmanModel.
Import ListNotations.
Open Scope Z_scope.

Definition zsum (l : list Z) : Z := fold_right Z.add 0 l.

(** Kraft's sum, in units of 2^-32, and completeness. *)
Definition weight (l : nat) : Z := if (l =? 0)%nat then 0 else 2 ^ (32 - Z.of_nat l).
Definition complete (lens : list nat) : Prop :=
  Forall (fun l => (l <= 32)%nat) lens /\ zsum (map weight lens) = 2 ^ 32.

(** The code of symbol [i]: every symbol that comes before it, one of length
    [l], takes 2^(len - l) of the words of its length. *)
Definition before (l' j l i : nat) : bool :=
  negb (l' =? 0)%nat && ((l' <? l)%nat || ((l' =? l)%nat && (j <? i)%nat)).
Definition code_value (lens : list nat) (i : nat) : Z :=
  let l := nth i lens O in
  zsum (map (fun j => let l' := nth j lens O in
                      if before l' j l i then 2 ^ (Z.of_nat l - Z.of_nat l') else 0)
            (seq 0 (length lens))).

(** As a bit string: most significant bit first (RFC 1951, 3.1.1). *)
Definition codeword (lens : list nat) (i : nat) : list bool :=
  bits (nth i lens O) (code_value lens i).

Definition coded (lens : list nat) (i : nat) : Prop := nth i lens O <> O.

(** A decoder for these lengths, at any point of its life: a new one, or one
    that has read symbols from some reader, with success or without. *)
Inductive decoder_of (lens : list nat) : decoder -> Prop :=
| dec_new : forall d, dec_init lens = Some d -> decoder_of lens d
| dec_used : forall d r d' r' res, decoder_of lens d -> rok r ->
    decode_symbol d r = Some (d', r', res) -> decoder_of lens d'.

(** The bit string [s] begins with [w]. *)
Definition starts_with (s w : list bool) : Prop := exists t, s = w ++ t.

(** Many symbols: written one after the other, and read back. *)
Definition encode_all (enc : list (Z * nat)) (w : writer) (l : list nat) : writer :=
  fold_left (encode_symbol enc) l w.
Fixpoint decode_all (d : decoder) (r : reader) (k : nat) : option (decoder * reader * list nat) :=
  match k with
  | O => Some (d, r, [])
  | S k =>
    match decode_symbol d r with
    | Some (d, r, Some v) =>
      match decode_all d r k with
      | Some (d, r, l) => Some (d, r, v :: l)
      | None => None
      end
    | _ => None
    end
  end.

(** A single symbol with a code, of one bit. *)
Definition one_code (lens : list nat) (i : nat) : Prop :=
  nth i lens O = 1%nat /\ forall j, j <> i -> nth j lens O = O.
