(** What secret sharing is about: streams on numbered channels. *)
From Coq Require Import ZArith List Bool Arith.
From Verif Require Import Base Gf32Model InterpSpec IdaModel.
Import ListNotations.

(** a message, a 01 byte and zeros *)
Definition padded (msg : list Z) (n : nat) : list Z := msg ++ 1%Z :: repeat 0%Z n.
(** the bytes that went out on a channel, and how often its message ended *)
Fixpoint sent (c : option Z) (evs : list ida_ev) : list Z :=
  match evs with
  | [] => []
  | IData d s :: r => (match c, d with None, None => s | Some x, Some y => if (x =? y)%Z then s else [] | _, _ => [] end) ++ sent c r
  | IEnd _ :: r => sent c r
  end.
Fixpoint ended (c : option Z) (evs : list ida_ev) : nat :=
  match evs with
  | [] => 0
  | IData _ _ :: r => ended c r
  | IEnd d :: r => (match c, d with None, None => 1 | Some x, Some y => if (x =? y)%Z then 1 else 0 | _, _ => 0 end) + ended c r
  end%nat.
(** the data the calls bring for channel c *)
Fixpoint stream (c : Z) (calls : list (Z * list Z * bool)) : list Z :=
  match calls with
  | [] => []
  | (d, s, _) :: r => (if (c =? d)%Z then s else []) ++ stream c r
  end.
(** The calls bring exactly one message for each of the channels [open], in any pieces and in any order:
    the last piece of each channel, and only that, carries the end mark. *)
Fixpoint one_message_each (open : list Z) (calls : list (Z * list Z * bool)) : Prop :=
  match calls with
  | [] => open = []
  | (c, _, fin) :: r => In c open /\ one_message_each (if fin then remove Z.eq_dec c open else open) r
  end.
(** the k-th big-endian 32-bit word of a byte string continued with zeros *)
Definition word_at (s : list Z) (k : nat) : Z := be_val (firstn 4 (skipn (4 * k) s ++ repeat 0%Z 4)).
(** how many words cover n bytes, and the longest of several streams *)
Definition words_for (n : nat) : nat := ((n + 3) / 4)%nat.
Definition words_needed (S : Z -> list Z) (ids : list Z) : nat := fold_right Nat.max 0%nat (map (fun c => words_for (length (S c))) ids).
(** words first to first + n - 1 of a word sequence, as bytes *)
Definition word_bytes (f : nat -> Z) (first n : nat) : list Z := concat (map (fun k => be_bytes 4 (f k)) (seq first n)).

Definition is_word (a : Z) : Prop := (0 <= a < 2 ^ 32)%Z.
(** [pol j] is a polynomial of degree below t over GF(2^32) that passes through the j-th words of the streams *)
Definition fits (pol : nat -> list Z) (t : nat) (ids : list Z) (S : Z -> list Z) : Prop :=
  forall j, (length (pol j) <= t)%nat /\ Forall is_word (pol j) /\ forall c, In c ids -> gf_eval (pol j) c = word_at (S c) j.
(** a string whose last byte other than zero is 01 *)
Definition ends_like_padding (s : list Z) : Prop := exists m n, s = padded m n.
Definition zeros (s : list Z) : Prop := Forall (fun b => b = 0%Z) s.
(** The pieces are cut so that the 01 of the padding is the first non-zero byte of its piece although what
    came before already looks padded. *)
Definition bad_split (ps : list (list Z)) : Prop :=
  exists before b c after, ps = before ++ (repeat 0%Z b ++ padded [] c) :: after /\ ends_like_padding (concat before) /\ zeros (concat after).
(** every t-th byte, beginning with byte c *)
Fixpoint every (t c : nat) (s : list Z) : list Z :=
  match s with
  | [] => []
  | b :: r => match c with O => b :: every t (t - 1) r | S d => every t d r end
  end.
(** what SecretSharing shares: the message, with padding to a multiple of four bytes if asked for *)
Definition pads (pad : bool) (msg : list Z) : list Z := if pad then padded msg (3 - length msg mod 4) else msg.
(** what InformationDispersal deals out *)
Definition marked (pad : bool) (msg : list Z) : list Z := if pad then msg ++ [1%Z] else msg.
(** the shares of one word: the secret [s] and the random words [r] are the values of a polynomial at 2^32 - 1, 0, 1, ..., t-2 *)
Definition sharing_points (t : nat) : list Z := secret_channel :: map Z.of_nat (seq 0 (t - 1)).
(** objects between two messages: nothing buffered *)
Definition share_idle (t n : nat) (pad : bool) (prop : Z) (calls : nat) : sshare := SShare (ida_set_prop (ida_init t (map Z.of_nat (seq 0 n))) prop) pad calls.
Definition disperse_idle (t n : nat) (pad : bool) (prop : Z) : disperse := Disperse (ida_set_prop (ida_init t (map Z.of_nat (seq 0 n))) prop) pad 0.
(** a message handed over in pieces, the last one with the end mark *)
Definition in_pieces (ps : list (list Z)) (last : list Z) (messageEnd : Z) : list (list Z * Z) := map (fun p => (p, 0%Z)) ps ++ [(last, messageEnd)].
