(** X.690, as far as asn.cpp goes, and how sources are seen from outside. *)
From Coq Require Import ZArith List Bool Arith Lia.
From Verif Require Import Base AsnModel.
Import ListNotations.
Local Open Scope Z_scope.

(** The bytes that can be read from a source, and a source in a possible state. *)
Definition visible (s : src) : list Z := firstn (Z.to_nat (s_count s)) (s_in s).
Definition src_ok (s : src) : Prop := Forall (fun f => match f with Some l => 0 <= l | None => True end) (s_frames s) /\ bytes (s_in s).
Definition len (l : list Z) : Z := Z.of_nat (length l).

(** 8.1.3: a definite length in BER, and the only one allowed in DER (10.1). *)
Definition ber_len (l : Z) (e : list Z) : Prop :=
  e = [l] /\ 0 <= l < 128 \/ exists ds, e = (128 + len ds) :: ds /\ 0 < len ds < 128 /\ bytes ds /\ l = be_val ds.
Definition der_len (l : Z) (e : list Z) : Prop :=
  if l <? 128 then e = [l] else exists ds, e = (128 + len ds) :: ds /\ bytes ds /\ hd 0 ds <> 0 /\ l = be_val ds.
(** 8.1: tag, length, contents *)
Definition der_object (tag : Z) (contents e : list Z) : Prop := exists le, der_len (len contents) le /\ e = tag :: le ++ contents.

(** [dec] reads back the value [v] encoded as [e] and nothing more, in any context. *)
Definition reads_back {A} (dec : src -> option (A * src)) (v : A) (e : list Z) : Prop :=
  forall s rest, src_ok s -> visible s = e ++ rest -> dec s = Some (v, s_skip (len e) s) /\ visible (s_skip (len e) s) = rest.
(** [dec] refuses every proper prefix of [e], whether the input or an enclosing object ends there. *)
Definition refuses_prefixes {A} (dec : src -> option (A * src)) (e : list Z) : Prop :=
  forall s missing, src_ok s -> missing <> [] -> visible s ++ missing = e -> dec s = None.

(** 8.3: the two's complement contents of a nonnegative INTEGER, in the fewest octets *)
Definition der_unsigned_contents (w : Z) (c : list Z) : Prop :=
  bytes c /\ c <> [] /\ be_val c = w /\ hd 0 c < 128 /\ (forall x r, c = 0 :: x :: r -> 128 <= x).

(** 8.19: subidentifiers in base 128, no leading zero groups *)
Definition base128 (c : list Z) : Z := fold_left (fun a b => a * 128 + b mod 128) c 0.
Definition subidentifier (v : Z) (c : list Z) : Prop :=
  exists lead x, c = lead ++ [x] /\ Forall (fun b => 128 <= b < 256) lead /\ 0 <= x < 128 /\ base128 c = v /\ hd 0 c <> 128.
Definition valid_oid (o : list Z) : Prop :=
  exists a b r, o = a :: b :: r /\ 0 <= a <= 2 /\ 0 <= b /\ (a < 2 -> b < 40) /\ Forall (fun v => 0 <= v < 2 ^ 32) (a :: b :: r).

(** BER objects as DERReencode distinguishes them: of definite length (contents arbitrary), or of indefinite
    length, made of objects and ended by two zeros. *)
Inductive ber := Definite (tag : Z) (le contents : list Z) | Indefinite (tag : Z) (kids : list ber).
Fixpoint ber_bytes (b : ber) : list Z :=
  match b with
  | Definite tag le c => tag :: le ++ c
  | Indefinite tag kids => tag :: 128 :: concat (map ber_bytes kids) ++ [0; 0]
  end.
Fixpoint ber_wf (b : ber) : Prop :=
  match b with
  | Definite tag le c => byte tag /\ ber_len (len c) le /\ bytes c /\ len c < 2 ^ 64
  | Indefinite tag kids => byte tag /\ Z.testbit tag 5 = true /\
      (fix all l := match l with [] => True | k :: r => ber_wf k /\ firstn 2 (ber_bytes k) <> [0; 0] /\ all r end) kids
  end.
Fixpoint ber_der (b : ber) (e : list Z) : Prop :=
  match b with
  | Definite tag le c => der_object tag c e
  | Indefinite tag kids =>
    exists es, (fix all l es := match l, es with [], [] => True | k :: r, x :: es => ber_der k x /\ all r es | _, _ => False end) kids es /\
      der_object tag (concat es) e
  end.

(** A decoder that takes bytes off the front of the source and does nothing else to it. *)
Definition reader {A} (dec : src -> option (A * src)) : Prop :=
  forall s v s', src_ok s -> dec s = Some (v, s') -> exists n, 0 <= n <= s_count s /\ s' = s_skip n s.
(** [f], called inside an object whose contents are [c], decodes [v] and leaves the object at its end. *)
Definition enter (f : option Z) (s : src) : src := mkSrc (s_in s) (f :: s_frames s).
Definition reads_in {A} (f : src -> option (A * src)) (v : A) (c : list Z) : Prop :=
  forall s, src_ok s -> src_ok (enter (Some (len c)) s) -> visible (enter (Some (len c)) s) = c ->
  f (enter (Some (len c)) s) = Some (v, enter (Some 0) (s_skip (len c) s)).
(** Optional attributes of a PKCS#8 key: nothing, or one object in DER. *)
Definition attributes_ok (a : list Z) : Prop := a = [] \/ exists tag c, byte tag /\ bytes c /\ der_object tag c a.
