(** PolynomialMod2's bytes: GetByte, SetByte, Encode and Decode of gf2n.cpp.

    The register and its simplifications are those of [Gf2nModel]; a BufferedTransformation is the list of the bytes it
    holds, and Decode gives back what is left of it. *)
From Coq Require Import ZArith List Bool Arith.
From Verif Require Import Base AsnModel WordsModel IntegerModel.
Import ListNotations.
Local Open Scope Z_scope.

Section Gf2nCodec.
Variable w : Z.
Notation ws := (Z.to_nat w / 8)%nat.

(** gf2n.cpp:114-120, GetByte. *)
Definition pm_get_byte (r : list Z) (n : nat) : Z :=
  if (length r <=? n / ws)%nat then 0 else Z.shiftr (at_ r (n / ws)) (Z.of_nat (n mod ws) * 8) mod 256.
(** gf2n.cpp:122-127, SetByte. *)
Definition pm_set_byte (r : list Z) (n : nat) (value : Z) : list Z :=
  let r := clean_grow r (bytes_to_words w (n + 1)) in
  let i := (n / ws)%nat in
  let r := upd i (Z.land (at_ r i) (base w - 1 - wd w (Z.shiftl 255 (8 * Z.of_nat (n mod ws))))) r in
  upd i (Z.lor (at_ r i) (wd w (Z.shiftl value (8 * Z.of_nat (n mod ws))))) r.
(** gf2n.cpp:214-218 and 235-239, Encode; the sink has room for all bytes. *)
Fixpoint pm_encode (outputLen : nat) (r : list Z) : list Z :=
  match outputLen with O => [] | S i => pm_get_byte r i :: pm_encode i r end.
(** gf2n.cpp:227-232, the loop of Decode: [i] bytes are still to come. *)
Fixpoint pm_decode_loop (i : nat) (bt : list Z) (r : list Z) : list Z * list Z :=
  match i, bt with
  | S i, b :: bt => pm_decode_loop i bt (upd (i / ws) (Z.lor (at_ r (i / ws)) (wd w (Z.shiftl b (Z.of_nat (i mod ws) * 8)))) r)
  | _, _ => (r, bt)
  end.
(** gf2n.cpp:208-212 and 219-233, Decode; [RThrow] is InvalidArgument. *)
Definition pm_decode (bt : list Z) (inputLen : nat) : res (list Z * list Z) :=
  if (length bt <? inputLen)%nat then RThrow
  else ROk (pm_decode_loop inputLen bt (repeat 0 (bytes_to_words w inputLen))).
End Gf2nCodec.
