(** HuffmanProperties: C61, the Huffman codes of deflate. *)
From Coq Require Import ZArith List Bool Lia Arith.
From Verif Require Import Base BitioModel BitioSpec BitioProofs BitioStream HuffmanModel HuffmanSpec HuffmanCode HuffmanTable HuffmanProofs.
Import ListNotations.
Open Scope Z_scope.

(** Lengths that fill the code exactly are accepted, whatever they are. *)
Theorem C61_complete_is_accepted : forall lens, complete lens -> exists d, dec_init lens = Some d.
Proof. intros lens H. destruct (dec_init_ok lens H) as (d & E & _). eauto. Qed.

(** And no others, if any of them is longer than one bit. *)
Theorem C61_only_complete_is_accepted : forall lens d, Z.of_nat (length lens) < 2 ^ 32 ->
  (exists i, 2 <= nth i lens O)%nat -> dec_init lens = Some d -> complete lens.
Proof.
  intros lens d HN (i & Hi) H. apply dec_init_accepts; [exact HN| |congruence].
  destruct (Nat.lt_ge_cases i (length lens)); [|rewrite nth_overflow in Hi by auto; lia].
  pose proof (max_bits_bound lens _ (nth_In lens O H0)). lia.
Qed.

(** No codeword is the beginning of another. *)
Theorem C61_prefix_free : forall lens i j s, complete lens -> coded lens i -> coded lens j ->
  codeword lens j = codeword lens i ++ s -> i = j.
Proof.
  intros lens i j s HK Ci Cj E. apply (codeword_prefix_free lens HK i j s []); auto.
  rewrite app_nil_r. auto.
Qed.

(** A decoder in any state reads from a reader in any state the symbol whose
    codeword comes next, and exactly that codeword; it says that it cannot only
    if what is left begins with no codeword, and then it has used nothing up. *)
Theorem C61_decode : forall lens d r, complete lens -> decoder_of lens d -> rok r ->
  exists d' r' res, decode_symbol d r = Some (d', r', res) /\ rok r' /\
  match res with
  | Some i => coded lens i /\ rbits r = codeword lens i ++ rbits r'
  | None => rbits r' = rbits r /\ forall i, coded lens i -> ~ starts_with (rbits r) (codeword lens i)
  end.
Proof.
  intros lens d r HK HD HR. destruct (decode_symbol_spec lens HK d r (decoder_of_ok lens d HK HD) HR)
    as (d' & r' & res & D & _ & R & S). exists d', r', res. auto.
Qed.

(** With a single code, of one bit, the decoder reads one bit and answers its
    symbol. *)
Theorem C61_decode_one_code : forall lens i d r, one_code lens i -> decoder_of lens d -> rok r ->
  exists d' r' res, decode_symbol d r = Some (d', r', res) /\ rok r' /\
  match res with
  | Some v => v = i /\ exists b, rbits r = b :: rbits r'
  | None => rbits r' = rbits r /\ rbits r = []
  end.
Proof.
  intros lens i d r HO HD HR. destruct (one_symbol i d r (decoder_of_one lens i d HO HD) HR)
    as (d' & r' & res & D & _ & R & S). exists d', r', res. auto.
Qed.

(** The encoder appends the codeword. *)
Theorem C61_encode : forall lens w i, complete lens -> wok w -> coded lens i ->
  wok (encode_symbol (enc_init lens) w i)
  /\ wbits (encode_symbol (enc_init lens) w i) = wbits w ++ codeword lens i.
Proof. intros. apply encode_symbol_spec; auto. Qed.

(** What is encoded and flushed decodes to the same symbols, whatever comes
    after it. *)
Theorem C61_roundtrip : forall lens l d w after, complete lens -> decoder_of lens d ->
  Forall (coded lens) l -> bytes after -> wok w -> wbits w = [] ->
  exists d' r', decode_all d (mkrd 0 0 (w_sent (flush_bits (encode_all (enc_init lens) w l)) ++ after)) (length l)
    = Some (d', r', l).
Proof.
  intros lens l d w after HK HD HF HA HW HE.
  destruct (encode_all_spec lens l w HK HW HF) as [A B]. rewrite HE in B. cbn [app] in B.
  destruct (flush_bits_spec _ A) as (C & P & _ & k & _ & E).
  set (w' := flush_bits (encode_all (enc_init lens) w l)) in *.
  assert (BS : bytes (w_sent w')) by (destruct C as (_ & _ & _ & C); rewrite P, app_nil_r in C; exact C).
  destruct (decode_all_spec lens l d (mkrd 0 0 (w_sent w' ++ after)) (repeat false k ++ stream after) HK (decoder_of_ok lens d HK HD))
    as (d' & r' & D & _); auto.
  - split; [cbn; lia|]. split; [cbn; lia|]. apply bytes_app. auto.
  - unfold rbits. cbn [r_cnt r_buf r_rest lsbs app]. rewrite stream_app, E, B, <- app_assoc. reflexivity.
  - exists d', r'. exact D.
Qed.

(** Incomplete and oversubscribed sets of codes are not all refused.  A single
    code of one bit uses half of the code space; the bit 1, which is no
    codeword, is read as its symbol all the same. *)
Theorem C61_no_codeword_refuted :
  exists lens d r, dec_init lens = Some d /\ rok r
  /\ (forall i, coded lens i -> ~ starts_with (rbits r) (codeword lens i))
  /\ exists d' r', decode_symbol d r = Some (d', r', Some 0%nat).
Proof.
  exists [1%nat], (mkdec 1 1 [mkinfo 0 1 0] [EEmpty; EEmpty]), (mkrd 0 0 [1]).
  split; [reflexivity|]. split.
  { split; [cbn; lia|]. split; [cbn; lia|]. repeat constructor; lia. }
  split; [|do 2 eexists; reflexivity].
  intros i Ci (t & E). destruct i as [|i]; [|destruct i; apply Ci; reflexivity]. discriminate E.
Qed.

(** Three codes of one bit are accepted: the test 2^m - blCount[m] wraps. *)
Theorem C61_oversubscribed_refuted :
  exists lens, dec_init lens <> None /\ 2 ^ 32 < zsum (map weight lens).
Proof. exists [1; 1; 1]%nat. split; [discriminate|reflexivity]. Qed.

(** The lengths of the example in RFC 1951, 3.2.2: A..H. *)
Definition ex_lens : list nat := [3; 3; 3; 3; 3; 2; 4; 4]%nat.
Example ex_complete : complete ex_lens.
Proof. split; [repeat constructor|reflexivity]. Qed.

(** Its table: F is 00, A is 010, E is 110, G is 1110 and H is 1111. *)
Example C61_example_code :
  map (codeword ex_lens) [5; 0; 4; 6; 7]%nat
  = [[false; false]; [false; true; false]; [true; true; false]; [true; true; true; false]; [true; true; true; true]].
Proof. reflexivity. Qed.

Example C61_example : exists d, decoder_of ex_lens d /\ Forall (coded ex_lens) [5; 7; 0; 0; 6]%nat
  /\ w_sent (flush_bits (encode_all (enc_init ex_lens) writer_new [5; 7; 0; 0; 6]%nat)) = [188; 116]
  /\ wok writer_new /\ wbits writer_new = [].
Proof.
  destruct (C61_complete_is_accepted ex_lens ex_complete) as (d & E). exists d.
  split; [constructor; exact E|]. split; [repeat constructor; discriminate|]. split; [reflexivity|apply writer_new_ok].
Qed.

Example C61_example_accepted : Z.of_nat (length ex_lens) < 2 ^ 32 /\ (2 <= nth 0 ex_lens O)%nat /\ dec_init ex_lens <> None.
Proof. split; [reflexivity|]. split; [cbn; lia|discriminate]. Qed.

Example C61_example_one : one_code [0; 0; 1]%nat 2 /\ dec_init [0; 0; 1]%nat <> None.
Proof.
  split; [split; [reflexivity|]|discriminate].
  intros j N. destruct j as [|[|[|[|j]]]]; try reflexivity; contradiction.
Qed.

Print Assumptions C61_complete_is_accepted.
Print Assumptions C61_only_complete_is_accepted.
Print Assumptions C61_prefix_free.
Print Assumptions C61_decode.
Print Assumptions C61_decode_one_code.
Print Assumptions C61_encode.
Print Assumptions C61_roundtrip.
Print Assumptions C61_no_codeword_refuted.
Print Assumptions C61_oversubscribed_refuted.
