(** DeflateProperties: C62, C93 and C94, what Deflator puts out. *)
From Coq Require Import ZArith List Bool Arith Lia.
From Verif Require Import Base BitioSpec HuffmanModel HuffmanSpec InflateModel InflateSpec InflateStream.
From Verif Require Import DeflateModel DeflateSpec DeflateTree DeflateBlock DeflateMatch DeflateProofs.
Import ListNotations.
Open Scope nat_scope.

(** * C62 *)

(** The symbols and extra bits that are emitted for a match stand for its length
    and its distance in the tables of RFC 1951, section 3.2.5, and as many extra
    bits are written as those tables say; the fields fit the bit fields of the
    buffer they wait in. *)
Theorem C62_length : forall d len, 3 <= len <= 258 ->
  let t := match_token d len in
  exists start extra, length_code (t_lit t) = Some (start, extra) /\ 257 <= t_lit t <= 285
    /\ nth (t_lit t - 257) length_extra_bits 0 = extra /\ t_lextra t < 2 ^ extra /\ start + t_lextra t = len.
Proof.
  intros d len H t. destruct (length_token d len H) as (ls & le & H1 & H2 & H3 & H4). fold t in H1, H2, H3, H4.
  exists ls, le. split; [exact H1|]. split; [lia|]. split; [apply (length_extra_ok (t_lit t) ls le); [lia|exact H1]|].
  split; assumption.
Qed.

Theorem C62_distance : forall d len, (1 <= d <= 32768)%Z ->
  let t := match_token d len in
  exists start extra, distance_code (t_dist t) = Some (start, extra) /\ t_dist t <= 29
    /\ nth (t_dist t) distance_extra_bits 0 = extra /\ t_dextra t < 2 ^ extra
    /\ (start + Z.of_nat (t_dextra t) = d)%Z.
Proof.
  intros d len H t. destruct (distance_token d len H) as (ds & de & H1 & H2 & H3 & H4 & H5). fold t in H1, H2, H3, H4.
  exists ds, de. split; [exact H1|]. split; [lia|]. split; [apply (distance_extra_ok (t_dist t) ds de); exact H1|].
  split; assumption.
Qed.

Example C62_example : match_token 24600 257 = mktok 284 30 29 23 /\ match_token 1 258 = mktok 285 0 0 0.
Proof. split; reflexivity. Qed.

(** * C93 *)

(** Every message of every run, with the data in any pieces and with flushes and
    changes of the level anywhere, is put out as a stream of the format, for a
    window of [D] bytes, that holds the data of the message and ends where the
    message ends.  [buf], [prev], [pmatch] and [plen] are what the memory held
    before the object was made. *)
Theorem C93_messages_are_deflated : forall k level detect buf prev pmatch plen ms,
  9 <= k <= 15 -> level <= 9 -> let D := 2 ^ k in length buf = 2 * D -> length prev = D ->
  Forall (Forall request_ok) ms ->
  exists outs, messages D (deflator_new D level detect buf prev pmatch plen) ms = Some outs
    /\ Forall2 (fun m out => bytes out /\ forall rest, deflated true D (out ++ rest) (message_data m) rest) ms outs.
Proof.
  intros k level detect buf prev pmatch plen ms Hk _ D HB HP HM.
  apply (messages_ok k D Hk (le_n _)); [exact HM|]. apply deflator_new_idle; first [assumption | apply le_n].
Qed.

(** So Inflator, with a window at least as large, gives the data back, when at
    least three bytes come after the stream, however the pieces are cut on
    either side. *)
Theorem C93_round_trip : forall k level detect buf prev pmatch plen m init rest,
  9 <= k <= 15 -> level <= 9 -> let D := 2 ^ k in length buf = 2 * D -> length prev = D ->
  Forall request_ok m -> D <= length init -> bytes rest -> 3 <= length rest ->
  exists out, messages D (deflator_new D level detect buf prev pmatch plen) [m] = Some [out]
    /\ forall pieces last, Forall bytes pieces -> bytes last -> concat pieces ++ last = out ++ rest ->
       inflate init pieces last = Fine (message_data m ++ rest).
Proof.
  intros k level detect buf prev pmatch plen m init rest Hk _ D HB HP HM HI HR HL.
  destruct (messages_ok k (length init) Hk HI [m] (deflator_new D level detect buf prev pmatch plen)
              (Forall_cons m HM (Forall_nil _))) as (outs & E & F).
  { apply deflator_new_idle; first [assumption | apply le_n]. }
  inversion F as [|? out ? outs' [Q1 Q2] F2]; subst. inversion F2; subst. exists out. split; [exact E|].
  intros pieces last HPs HLs EQ. apply inflate_complete; try assumption.
  - assert (2 ^ 9 <= D) by (apply Nat.pow_le_mono_r; lia). change (2 ^ 9) with 512 in *. lia.
  - rewrite EQ. apply Q2.
Qed.

(** Nothing after it is not enough: an empty message at level 0 is put out as a
    stored block of no bytes, and Inflator refuses that. *)
Theorem C93_nothing_after_refuted :
  exists out, messages 512 (deflator_new 512 0 true (repeat 0%Z 1024) (repeat 0 512) 0 0) [[]] = Some [out]
    /\ inflate (repeat 0%Z 512) [] out = UnexpectedEnd.
Proof. exists [1; 0; 0; 255; 255]%Z. split; reflexivity. Qed.

(** Two messages at level 6 and window 512: a run in two pieces with a flush in
    it, and one with a change of the level. *)
Definition example_messages : list (list request) :=
  [[RPut (repeat 97%Z 6); RPut (repeat 97%Z 4)]; [RPut [98%Z]; RFlush true; RLevel 0; RPut [98; 99]%Z]].
Example C93_example_hypotheses : Forall (Forall request_ok) example_messages.
Proof. repeat constructor; lia. Qed.
Example C93_example :
  messages 512 (deflator_new 512 6 true (repeat 0%Z 1024) (repeat 0 512) 0 0) example_messages
  = Some [[75; 76; 132; 1; 0]; [74; 2; 0; 0; 0; 255; 255; 1; 2; 0; 253; 255; 98; 99]]%Z.
Proof. vm_compute. reflexivity. Qed.

(** * C94 *)

(** For any counts, of not more symbols than codes of [m] bits, exactly the
    symbols that occur get a code, of at most [m] bits, and the lengths are those
    of a complete prefix code; a symbol that is alone gets a code of one bit. *)
Theorem C94_code_lengths : forall m counts,
  1 <= m <= 32 -> (Z.of_nat (length counts) <= 2 ^ Z.of_nat m)%Z -> Forall (fun c => (0 <= c)%Z) counts ->
  exists lens, code_lengths m counts = Some lens /\ length lens = length counts
    /\ (forall i, nth i lens 0 <> 0 <-> (0 < nth i counts 0)%Z) /\ Forall (fun x => x <= m) lens
    /\ (complete lens \/ (exists i, one_code lens i) \/ lens = repeat 0 (length counts)).
Proof. exact code_lengths_ok. Qed.

(** Five symbols, the least frequent of which would need four bits, in three. *)
Example C94_example : code_lengths 3 [1; 1; 2; 4; 0; 8]%Z = Some [3; 3; 3; 3; 0; 1].
Proof. reflexivity. Qed.

Print Assumptions C62_length.
Print Assumptions C62_distance.
Print Assumptions C93_messages_are_deflated.
Print Assumptions C93_round_trip.
Print Assumptions C93_nothing_after_refuted.
Print Assumptions C94_code_lengths.
