(** C54 padding removal, C55 secret sharing and information dispersal, C89 secrecy of sharing, C90 bulk interpolation. *)
From Coq Require Import ZArith List Bool Arith Lia.
From Verif Require Import Base Gf32Model Gf32FieldProofs InterpModel InterpSpec InterpGfProofs IdaModel IdaSpec IdaProofs IdaSinkProofs IdaRawProofs IdaShareProofs IdaRecoverProofs IdaInfoProofs.
Import ListNotations.

(* ---------------------------------------------------------------- C54 *)
Theorem C54_padding_removed : forall ps msg n, concat ps = padded msg n -> ~ bad_split ps -> padrm_run padrm_init ps = (PadRm true n, msg).
Proof. exact padding_removed. Qed.
Example C54_padding_removed_example : padrm_run padrm_init [[7]; [1; 0]; [0; 5; 1]; [0; 0]]%Z = (PadRm true 2, [7; 1; 0; 0; 5]%Z).
Proof. reflexivity. Qed.
(** in one piece, and whenever the message itself does not end like padding, no split is bad *)
Theorem C54_one_piece : forall msg n, padrm_run padrm_init [padded msg n] = (PadRm true n, msg).
Proof.
  intros msg n. apply padding_removed; [apply app_nil_r|]. intros (be & b & c & af & E & (m & k & Q) & _). destruct be as [|x be]; [destruct m; discriminate|]. destruct be; discriminate.
Qed.
Theorem C54_no_bad_split : forall ps msg n, concat ps = padded msg n -> ~ ends_like_padding msg -> padrm_run padrm_init ps = (PadRm true n, msg).
Proof.
  intros ps msg n E NE. apply padding_removed; [exact E|]. intros (be & b & c & af & Q & (m & k & E1) & Z1). apply NE. exists m, (k + b)%nat.
  assert (E2 : concat ps = padded (padded m (k + b)) (c + length (concat af))).
  { rewrite Q, concat_app. cbn [concat]. rewrite E1. assert (ZE : concat af = repeat 0%Z (length (concat af))). { clear - Z1. induction (concat af) as [|x l IH]; [reflexivity|]. inversion Z1; subst. cbn [length repeat]. f_equal. auto. }
    rewrite ZE at 1. unfold padded. rewrite !repeat_app. cbn [app]. repeat (rewrite <- app_assoc; cbn [app]). reflexivity. }
  rewrite E in E2. apply padded_inj in E2. apply E2.
Qed.
Example C54_no_bad_split_example : concat [[1; 2; 3]; [1]; [0; 0]]%Z = padded [1; 2; 3]%Z 2 /\ ~ ends_like_padding [1; 2; 3]%Z.
Proof.
  split; [reflexivity|]. intros (m & n & E). unfold padded in E. destruct m as [|a [|b [|c [|d m]]]]; cbn in E; try discriminate; destruct n as [|[|[|n]]]; discriminate.
Qed.
(** Two pieces, where the first one looks padded and the padding's 01 opens the second: the padding is passed on as data. *)
Theorem C54_split_refuted : forall m a b c, let msg := padded m a ++ repeat 0%Z b in
  concat [padded m a; repeat 0%Z b ++ padded [] c] = padded msg c /\ padrm_run padrm_init [padded m a; repeat 0%Z b ++ padded [] c] = (PadRm false 0, padded msg c).
Proof.
  intros m a b c msg. assert (E : padded m a ++ repeat 0%Z b ++ padded [] c = padded msg c) by (unfold msg, padded; repeat (rewrite <- app_assoc; cbn [app]); reflexivity).
  split; [cbn [concat]; rewrite app_nil_r; exact E|]. rewrite bad_two_pieces, E. reflexivity.
Qed.
Example C54_split_refuted_example : padrm_run padrm_init [[5; 1]; [1; 0]]%Z = (PadRm false 0, [5; 1; 1; 0]%Z) /\ padrm_run padrm_init [[5; 1; 1; 0]]%Z = (PadRm true 1, [5; 1]%Z).
Proof. split; reflexivity. Qed.
(** The end of a message: with the data in the same call everything is passed on twice; after the data, the end is lost
    and the padding turns up in front of the next message. *)
Theorem C54_message_end_refuted : forall msg n b r, b <> 0%Z ->
  padrm_put_end padrm_init (padded msg n) = Some (PadRm false n, msg ++ padded msg n, true) /\
  padrm_put_end (PadRm true n) [] = Some (PadRm true n, [], false) /\
  exists st o, padrm_put (PadRm true n) (b :: r) = (st, padded [] n ++ b :: o).
Proof.
  intros msg n b r Hb. split; [|split].
  - unfold padrm_put_end. cbn [pr_possible padrm_init andb]. unfold padrm_put. cbn [pr_possible padrm_init]. rewrite tail_padded. reflexivity.
  - cbn. rewrite Nat.add_0_r. reflexivity.
  - unfold padrm_put. cbn [pr_possible pr_zeros zero_run]. destruct (Z.eqb_spec b 0); [contradiction|]. cbn [skipn]. rewrite Nat.add_0_r. destruct (padrm_tail (PadRm false 0) r) as [st o]. exists st, o. reflexivity.
Qed.
Example C54_message_end_refuted_example : padrm_put_end padrm_init [9; 8; 1; 0]%Z = Some (PadRm false 1, [9; 8; 9; 8; 1; 0]%Z, true).
Proof. reflexivity. Qed.
(** while padding is possible, a call that brings data and the end reads past its buffer *)
Theorem C54_overread_refuted : forall n b r, b <> 0%Z -> padrm_put_end (PadRm true n) (b :: r) = None.
Proof. intros n b r H. unfold padrm_put_end. cbn [pr_possible zero_run]. destruct (Z.eqb_spec b 0); [contradiction|]. reflexivity. Qed.
Example C54_overread_refuted_example : snd (padrm_run padrm_init [[3; 1]]%Z) = [3]%Z /\ padrm_put_end (fst (padrm_run padrm_init [[3; 1]]%Z)) [4]%Z = None.
Proof. split; reflexivity. Qed.

(* ---------------------------------------------------------------- C55 *)
(** A message shared in any pieces, by a new object or between two messages, and any t of its n shares brought in any
    pieces and any order to a recovery object. The hypothesis on cut': the output queue is filled by PutWord32 only and
    emptied in multiples of four bytes, and its nodes hold 256, 512, ... bytes, so its last word lies in one node. *)
Theorem C55_secret_recovered : forall cut cut' rnd t n prop0 calls0 ps last messageEnd prop,
  (forall i len, length (rnd i len) = len /\ bytes (rnd i len)) -> (forall w, length w = 4%nat -> cut' w = [w]) ->
  (1 <= t)%nat -> (t <= n)%nat -> (Z.of_nat n < 2 ^ 32)%Z -> bytes (concat ps ++ last) -> messageEnd <> 0%Z ->
  exists calls1 evs, share_run cut rnd (share_idle t n true prop0 calls0) (in_pieces ps last messageEnd) = Some (share_idle t n true (messageEnd - 1) calls1, evs) /\
    forall ids calls, NoDup ids -> length ids = t -> (forall c, In c ids -> (0 <= c < Z.of_nat n)%Z) -> one_message_each ids calls -> (forall c, In c ids -> stream c calls = sent (Some c) evs) ->
      exists evs', ida_run cut' (KSecret true) (ida_set_prop (recovery_init t) prop) calls = Some (ida_set_prop (recovery_init t) prop, evs') /\
        sent None evs' = concat ps ++ last /\ ended None evs' = if (prop =? 0)%Z then 0%nat else 1%nat.
Proof.
  intros cut cut' rnd t n prop0 calls0 ps last me prop Hr Hc Ht Htn Hn HB Hme.
  assert (Htw : (Z.of_nat t <= 2 ^ 32)%Z) by lia. assert (Hnw : (Z.of_nat n <= 2 ^ 32)%Z) by lia.
  destruct (share_message cut rnd t Hr Ht Htw (map Z.of_nat (seq 0 n)) (numbers_nodup n) (numbers_word n Hnw) [] prop0 true calls0 ps last me HB Hme) as (n1 & evs & pol & R & HP & HO & _).
  exists n1, evs. split; [exact R|]. intros ids calls ND HL HI HM HS.
  apply (recover_padded cut' t prop ids pol [] calls (concat ps ++ last)); auto.
  - apply Forall_forall. intros c Hcn. specialize (HI c Hcn). unfold is_word. lia.
  - intros c Hcn. rewrite HS by auto. apply HO. specialize (HI c Hcn). rewrite <- (Z2Nat.id c) by lia. apply in_map, in_seq. lia.
Qed.
(** without padding the secret comes back with zeros up to the next multiple of four bytes *)
Theorem C55_unpadded_secret_recovered : forall cut cut' rnd t n prop0 calls0 ps last messageEnd prop,
  (forall i len, length (rnd i len) = len /\ bytes (rnd i len)) ->
  (1 <= t)%nat -> (t <= n)%nat -> (Z.of_nat n < 2 ^ 32)%Z -> bytes (concat ps ++ last) -> messageEnd <> 0%Z ->
  exists calls1 evs, share_run cut rnd (share_idle t n false prop0 calls0) (in_pieces ps last messageEnd) = Some (share_idle t n false (messageEnd - 1) calls1, evs) /\
    forall ids calls, NoDup ids -> length ids = t -> (forall c, In c ids -> (0 <= c < Z.of_nat n)%Z) -> one_message_each ids calls -> (forall c, In c ids -> stream c calls = sent (Some c) evs) ->
      exists evs', ida_run cut' (KSecret false) (ida_set_prop (recovery_init t) prop) calls = Some (ida_set_prop (recovery_init t) prop, evs') /\
        sent None evs' = (concat ps ++ last) ++ repeat 0%Z (4 * words_for (length (concat ps ++ last)) - length (concat ps ++ last)) /\ ended None evs' = if (prop =? 0)%Z then 0%nat else 1%nat.
Proof.
  intros cut cut' rnd t n prop0 calls0 ps last me prop Hr Ht Htn Hn HB Hme.
  assert (Htw : (Z.of_nat t <= 2 ^ 32)%Z) by lia. assert (Hnw : (Z.of_nat n <= 2 ^ 32)%Z) by lia.
  destruct (share_message cut rnd t Hr Ht Htw (map Z.of_nat (seq 0 n)) (numbers_nodup n) (numbers_word n Hnw) [] prop0 false calls0 ps last me HB Hme) as (n1 & evs & pol & R & HP & HO & _).
  exists n1, evs. split; [exact R|]. intros ids calls ND HL HI HM HS.
  apply (recover_unpadded cut' t prop ids pol [] calls (concat ps ++ last)); auto.
  - apply Forall_forall. intros c Hcn. specialize (HI c Hcn). unfold is_word. lia.
  - intros c Hcn. rewrite HS by auto. apply HO. specialize (HI c Hcn). rewrite <- (Z2Nat.id c) by lia. apply in_map, in_seq. lia.
Qed.
Theorem C55_new_object_idle : forall t n pad, share_init t n pad = share_idle t n pad (-1) 0 /\ disperse_init t n pad = disperse_idle t n pad (-1) /\ recovery_init t = ida_set_prop (recovery_init t) (-1).
Proof. intros. repeat split. Qed.
(** every share has the words of the padded secret and ends once; nothing goes to other channels *)
Theorem C55_shares : forall cut rnd t n pad prop0 calls0 ps last messageEnd,
  (forall i len, length (rnd i len) = len /\ bytes (rnd i len)) -> (1 <= t)%nat -> (Z.of_nat t <= 2 ^ 32)%Z -> (Z.of_nat n < 2 ^ 32)%Z -> bytes (concat ps ++ last) -> messageEnd <> 0%Z -> messageEnd <> 1%Z ->
  exists s evs, share_run cut rnd (share_idle t n pad prop0 calls0) (in_pieces ps last messageEnd) = Some (s, evs) /\
    (forall c, (0 <= c < Z.of_nat n)%Z -> length (sent (Some c) evs) = (4 * words_for (length (pads pad (concat ps ++ last))))%nat /\ ended (Some c) evs = 1%nat) /\
    (forall c, ~ (0 <= c < Z.of_nat n)%Z -> sent (Some c) evs = [] /\ ended (Some c) evs = 0%nat) /\ sent None evs = [] /\ ended None evs = 0%nat.
Proof.
  intros cut rnd t n pad prop0 calls0 ps last me Hr Ht Htw Hn HB Hme Hme1. assert (Hnw : (Z.of_nat n <= 2 ^ 32)%Z) by lia.
  destruct (share_message cut rnd t Hr Ht Htw (map Z.of_nat (seq 0 n)) (numbers_nodup n) (numbers_word n Hnw) [] prop0 pad calls0 ps last me HB Hme) as (n1 & evs & pol & R & HP & HO & HN & HD).
  exists (share_idle t n pad (me - 1) n1), evs. split; [exact R|]. split; [|split; [|exact HD]].
  - intros c Hc. destruct (HO c) as [A1 A2]. { rewrite <- (Z2Nat.id c) by lia. apply in_map, in_seq. lia. } rewrite A1, A2, word_bytes_length. split; [reflexivity|]. destruct (Z.eqb_spec (me - 1) 0); [lia|reflexivity].
  - intros c Hc. apply HN. intros Q. apply in_map_iff in Q. destruct Q as (i & <- & Hi). apply in_seq in Hi. lia.
Qed.
(** a random source that is not random at all, two of three shares, byte by byte *)
Definition ones (i len : nat) : list Z := repeat 1%Z len.
Definition ex_shares := match share_run (fun q => [q]) ones (share_init 2 3 true) (in_pieces [[10; 20]; []]%Z [30; 40; 50]%Z (-1)) with Some (_, e) => e | None => [] end.
Definition ex_calls : list (Z * list Z * bool) := map (fun b => (2, [b], false)%Z) (sent (Some 2%Z) ex_shares) ++ [(0, sent (Some 0) ex_shares, true)%Z; (2, [], true)%Z].
Example C55_example : match ida_run (fun q => [q]) (KSecret true) (recovery_init 2) ex_calls with Some (_, e) => sent None e = [10; 20; 30; 40; 50]%Z /\ ended None e = 1%nat | None => False end.
Proof. vm_compute. split; reflexivity. Qed.
Example C55_example_meets : one_message_each [0; 2]%Z ex_calls /\ (forall c, In c [0; 2]%Z -> stream c ex_calls = sent (Some c) ex_shares) /\ sent (Some 2%Z) ex_shares <> sent (Some 0%Z) ex_shares.
Proof. split; [vm_compute; tauto|]. split; [|vm_compute; discriminate]. intros c [<-|[<-|[]]]; vm_compute; reflexivity. Qed.

(* ---------------------------------------------------------------- information dispersal *)
Theorem C55_information_recovered_partial : forall cut cut' t n prop0 ps last messageEnd prop,
  (forall q, length q = (4 * t)%nat -> cut' q = [q]) ->
  (1 <= t)%nat -> (t <= n)%nat -> (Z.of_nat n < 2 ^ 32)%Z -> bytes (concat ps ++ last) -> messageEnd <> 0%Z ->
  exists d evs, disperse_run cut (disperse_idle t n true prop0) (in_pieces ps last messageEnd) = Some (d, evs) /\
    (((length (concat ps ++ last) + 1) mod t = 0)%nat -> d = disperse_idle t n true (messageEnd - 1)) /\
    forall ids calls, NoDup ids -> length ids = t -> (forall c, In c ids -> (0 <= c < Z.of_nat n)%Z) -> one_message_each ids calls -> (forall c, In c ids -> stream c calls = sent (Some c) evs) ->
      exists evs', ida_run cut' (KInfo true) (ida_set_prop (info_recovery_init t) prop) calls = Some (ida_set_prop (info_recovery_init t) prop, evs') /\
        sent None evs' = concat ps ++ last /\ ended None evs' = if (prop =? 0)%Z then 0%nat else 1%nat.
Proof.
  intros cut cut' t n prop0 ps last me prop Hc Ht Htn Hn HB Hme.
  assert (Htw : (Z.of_nat t <= 2 ^ 32)%Z) by lia. assert (Hnw : (Z.of_nat n <= 2 ^ 32)%Z) by lia.
  destruct (disperse_message cut t (map Z.of_nat (seq 0 n)) Ht Htw (numbers_nodup n) (numbers_word n Hnw) [] prop0 true ps last me HB Hme) as (evs & pol & R & HP & HO & _).
  eexists. exists evs. split; [exact R|]. split.
  { intros Q. unfold marked. rewrite app_length. cbn [length]. rewrite Q. reflexivity. }
  intros ids calls ND HL HI HM HS.
  destruct (info_recovered cut' t prop ids pol true calls (concat ps ++ last)) as (k & evs' & K1 & K2 & K3 & K4 & K5); auto.
  - apply Forall_forall. intros c Hcn. specialize (HI c Hcn). unfold is_word. lia.
  - intros c Hcn. rewrite HS by auto. apply HO. specialize (HI c Hcn). rewrite <- (Z2Nat.id c) by lia. apply in_map, in_seq. lia.
  - exists evs'. split; [exact K3|]. split; [|exact K4]. rewrite K5. set (msg := concat ps ++ last) in *. unfold marked in K2. rewrite app_length in K2. cbn [length] in K2.
    assert (GE : (4 * t <= length msg + 1 + k)%nat). { destruct (Nat.le_gt_cases (4 * t) (length msg + 1 + k)); [auto|]. rewrite Nat.mod_small in K2 by lia. lia. }
    rewrite Hc, single_piece by (rewrite padded_length, skipn_length; lia). apply firstn_skipn.
Qed.
Theorem C55_unpadded_information_recovered : forall cut cut' t n prop0 ps last messageEnd prop,
  (1 <= t)%nat -> (t <= n)%nat -> (Z.of_nat n < 2 ^ 32)%Z -> bytes (concat ps ++ last) -> messageEnd <> 0%Z ->
  exists d evs, disperse_run cut (disperse_idle t n false prop0) (in_pieces ps last messageEnd) = Some (d, evs) /\
    ((length (concat ps ++ last) mod t = 0)%nat -> d = disperse_idle t n false (messageEnd - 1)) /\
    forall ids calls, NoDup ids -> length ids = t -> (forall c, In c ids -> (0 <= c < Z.of_nat n)%Z) -> one_message_each ids calls -> (forall c, In c ids -> stream c calls = sent (Some c) evs) ->
      exists evs' k, ida_run cut' (KInfo false) (ida_set_prop (info_recovery_init t) prop) calls = Some (ida_set_prop (info_recovery_init t) prop, evs') /\
        (k < 4 * t)%nat /\ ((length (concat ps ++ last) + k) mod (4 * t) = 0)%nat /\ sent None evs' = (concat ps ++ last) ++ repeat 0%Z k /\ ended None evs' = if (prop =? 0)%Z then 0%nat else 1%nat.
Proof.
  intros cut cut' t n prop0 ps last me prop Ht Htn Hn HB Hme.
  assert (Htw : (Z.of_nat t <= 2 ^ 32)%Z) by lia. assert (Hnw : (Z.of_nat n <= 2 ^ 32)%Z) by lia.
  destruct (disperse_message cut t (map Z.of_nat (seq 0 n)) Ht Htw (numbers_nodup n) (numbers_word n Hnw) [] prop0 false ps last me HB Hme) as (evs & pol & R & HP & HO & _).
  eexists. exists evs. split; [exact R|]. split. { intros Q. unfold marked. rewrite Q. reflexivity. }
  intros ids calls ND HL HI HM HS.
  destruct (info_recovered cut' t prop ids pol false calls (concat ps ++ last)) as (k & evs' & K1 & K2 & K3 & K4 & K5); auto.
  - apply Forall_forall. intros c Hcn. specialize (HI c Hcn). unfold is_word. lia.
  - intros c Hcn. rewrite HS by auto. apply HO. specialize (HI c Hcn). rewrite <- (Z2Nat.id c) by lia. apply in_map, in_seq. lia.
  - exists evs', k. auto.
Qed.
Definition ex_dispersed := match disperse_run (fun q => [q]) (disperse_init 2 3 true) (in_pieces [[10; 20]; []]%Z [30; 40; 50]%Z (-1)) with Some (_, e) => e | None => [] end.
Definition ex_info_calls : list (Z * list Z * bool) := [(2, sent (Some 2) ex_dispersed, false)%Z; (1, sent (Some 1) ex_dispersed, true)%Z; (2, [], true)%Z].
Example C55_information_example : match ida_run (fun q => [q]) (KInfo true) (info_recovery_init 2) ex_info_calls with Some (_, e) => sent None e = [10; 20; 30; 40; 50]%Z /\ ended None e = 1%nat | None => False end.
Proof. vm_compute. split; reflexivity. Qed.
(** The kept-back bytes lie across the end of the first node of m_queue (256 bytes): every 256-byte message that ends
    in 01 comes back with its padding when the threshold is 3. *)
Lemma firstn_app_n : forall (A : Type) n (a b : list A), length a = n -> firstn n (a ++ b) = a. Proof. intros A n a b <-. apply firstn_app_exact. Qed.
Definition node_cut (q : list Z) : list (list Z) := [firstn 4 q; skipn 4 q].
Theorem C55_information_node_refuted : forall cut n prop0 ps last messageEnd m,
  (3 <= n)%nat -> (Z.of_nat n < 2 ^ 32)%Z -> bytes m -> length m = 255%nat -> concat ps ++ last = m ++ [1%Z] -> messageEnd <> 0%Z ->
  exists d evs, disperse_run cut (disperse_idle 3 n true prop0) (in_pieces ps last messageEnd) = Some (d, evs) /\
    forall calls, one_message_each [0; 1; 2]%Z calls -> (forall c, In c [0; 1; 2]%Z -> stream c calls = sent (Some c) evs) ->
      exists evs', ida_run node_cut (KInfo true) (info_recovery_init 3) calls = Some (info_recovery_init 3, evs') /\
        sent None evs' = (m ++ [1%Z]) ++ 1%Z :: repeat 0%Z 7.
Proof.
  intros cut n prop0 ps last me m Hn3 Hn Bm Lm HE Hme. assert (Hnw : (Z.of_nat n <= 2 ^ 32)%Z) by lia.
  assert (HB : bytes (concat ps ++ last)) by (rewrite HE; apply bytes_app; split; [exact Bm|constructor; [unfold byte; lia|constructor]]).
  destruct (disperse_message cut 3 (map Z.of_nat (seq 0 n)) ltac:(lia) ltac:(lia) (numbers_nodup n) (numbers_word n Hnw) [] prop0 true ps last me HB Hme) as (evs & pol & R & HP & HO & _).
  eexists. exists evs. split; [exact R|]. intros calls HM HS.
  destruct (info_recovered node_cut 3 (-1) [0; 1; 2]%Z pol true calls (concat ps ++ last)) as (k & evs' & K1 & K2 & K3 & K4 & K5); auto.
  - lia.
  - repeat constructor; cbn; lia.
  - repeat constructor; unfold is_word; lia.
  - intros c Hcn. rewrite HS by auto. apply HO. assert (0 <= c < 3)%Z by (cbn in Hcn; lia). rewrite <- (Z2Nat.id c) by lia. apply in_map, in_seq. lia.
  - exists evs'. split; [exact K3|]. rewrite K5. rewrite HE in *. unfold marked in K2. rewrite !app_length, Lm in K2. cbn [length] in K2.
    assert (KK : k = 7%nat). { pose proof (Nat.div_mod_eq (255 + 1 + 1 + k) (4 * 3)). lia. } subst k.
    rewrite app_length, Lm. replace (255 + length [1%Z] + 1 + 7 - 4 * 3)%nat with 252%nat by reflexivity.
    assert (L3 : length (skipn 252 m) = 3%nat) by (rewrite skipn_length; lia).
    assert (EQ : padded (skipn 252 (m ++ [1%Z])) 7 = padded (skipn 252 m) 0 ++ padded [] 7) by (rewrite skipn_app; replace (252 - length m)%nat with 0%nat by lia; unfold padded; cbn [skipn repeat app]; rewrite <- !app_assoc; reflexivity).
    unfold node_cut. rewrite EQ. assert (L4 : length (padded (skipn 252 m) 0) = 4%nat) by (rewrite padded_length, L3; reflexivity).
    rewrite (firstn_app_n _ _ _ _ L4), (skipn_app_n _ _ _ _ L4).
    pose proof (bad_two_pieces (skipn 252 m) 0 0 7) as BT. cbn [repeat app] in BT. rewrite padrm_all_run, BT. cbn [snd]. unfold padded. cbn [repeat app].
    rewrite firstn_app. replace (252 - length m)%nat with 0%nat by lia. change (firstn 0 [1%Z]) with (@nil Z). rewrite app_nil_r, !app_assoc, firstn_skipn. reflexivity.
Qed.
(** m_nextChannel is not put back at the end of a message: two messages through one object *)
Definition ex_two := match disperse_run (fun q => [q]) (disperse_init 2 2 true) [([10; 20]%Z, (-1)%Z)] with
  | Some (d, _) => match disperse_run (fun q => [q]) d [([30; 40; 50]%Z, (-1)%Z)] with Some (_, e) => e | None => [] end | None => [] end.
Theorem C55_second_message_refuted : match ida_run (fun q => [q]) (KInfo true) (info_recovery_init 2) [(0, sent (Some 0) ex_two, true)%Z; (1, sent (Some 1) ex_two, true)%Z] with
  | Some (_, e) => sent None e = [40; 30; 1; 50; 0; 0; 0; 0]%Z | None => False end.
Proof. vm_compute. reflexivity. Qed.

(* ---------------------------------------------------------------- C89 *)
Lemma word_points : forall t, (1 <= t)%nat -> (Z.of_nat t <= 2 ^ 32)%Z -> NoDup (sharing_points t) /\ length (sharing_points t) = t /\ Forall is_word (sharing_points t).
Proof. intros t Ht Hw. split; [exact (share_channels_nodup t Hw)|]. split; [exact (share_channels_length t Ht)|exact (share_channels_word t Hw)]. Qed.
(** a function with the listed values *)
Definition value_of (ids ys : list Z) (c : Z) : Z := match index_of c ids with Some i => nth i ys 0%Z | None => 0%Z end.
Lemma value_of_nth : forall ids ys, NoDup ids -> length ids = length ys -> map (value_of ids ys) ids = ys.
Proof.
  intros ids ys ND HL. apply (nth_ext _ _ 0%Z 0%Z); [rewrite map_length; auto|]. intros i Hi. rewrite map_length in Hi. rewrite (nth_indep _ 0%Z (value_of ids ys 0%Z)) by (rewrite map_length; auto). rewrite map_nth. unfold value_of.
  destruct (index_of (nth i ids 0%Z) ids) as [j|] eqn:E.
  - destruct (index_of_some _ _ _ E) as [A B]. assert (j = i) by (apply (proj1 (NoDup_nth ids 0%Z) ND); auto). subst j. reflexivity.
  - apply index_of_none in E. exfalso. apply E. apply nth_In. auto.
Qed.
Lemma value_of_word : forall ids ys c, Forall is_word ys -> is_word (value_of ids ys c).
Proof. intros ids ys c H. unfold value_of. destruct (index_of c ids) as [i|]; [|unfold is_word; lia]. destruct (Nat.ltb_spec i (length ys)); [rewrite Forall_forall in H; apply H, nth_In; auto|rewrite nth_overflow by auto; unfold is_word; lia]. Qed.
Lemma interp_list : forall t ids ys, (1 <= t)%nat -> length ids = t -> NoDup ids -> Forall is_word ids -> length ys = t -> Forall is_word ys ->
  exists c, (length c <= t)%nat /\ Forall is_word c /\ map (gf_eval c) ids = ys.
Proof.
  intros t ids ys Ht HL ND Wi HY Wy. destruct (fits_one t ids (value_of ids ys) Ht HL ND Wi) as (c & C1 & C2 & C3); [intros; apply value_of_word; auto|].
  exists c. split; [exact C1|]. split; [exact C2|]. rewrite <- (value_of_nth ids ys) by (auto; congruence). apply map_ext_in. auto.
Qed.
Lemma word_pol_list : forall t ids ys c o, (1 <= t)%nat -> length ids = t -> NoDup ids -> Forall is_word ids -> (length c <= t)%nat -> Forall is_word c -> is_word o -> map (gf_eval c) ids = ys -> ida_word t ids ys o = gf_eval c o.
Proof. intros t ids ys c o Ht HL ND Wi Lc Wc Wo <-. apply ida_word_pol; auto. Qed.
(** Any t-1 shares fit every secret: for each secret word and each value of the shares there is exactly one choice of the
    t-1 random words that gives these shares. *)
Theorem C89_fewer_shares_say_nothing : forall t ids s ys, (1 <= t)%nat -> (Z.of_nat t <= 2 ^ 32)%Z -> NoDup ids -> length ids = (t - 1)%nat -> Forall is_word ids -> ~ In secret_channel ids ->
  is_word s -> length ys = (t - 1)%nat -> Forall is_word ys ->
  exists! r, length r = (t - 1)%nat /\ Forall is_word r /\ map (fun o => ida_word t (sharing_points t) (s :: r) o) ids = ys.
Proof.
  intros t ids s ys Ht Hw ND HL Wi NS Ws HY Wy. destruct (word_points t Ht Hw) as (P1 & P2 & P3).
  assert (Wsc : is_word secret_channel) by (unfold is_word, secret_channel; lia).
  assert (WE : forall c o, Forall is_word c -> is_word o -> is_word (gf_eval c o)). { intros c o Hc Ho. apply (proj2 (is_word_iff _)). apply gf_eval_word; [apply Forall_is_word; auto|apply is_word_iff; auto]. }
  destruct (interp_list t (secret_channel :: ids) (s :: ys)) as (c & C1 & C2 & C3); auto; [cbn; lia|constructor; auto|cbn; lia|].
  cbn [map] in C3. injection C3 as C3 C4. set (pts := map Z.of_nat (seq 0 (t - 1))). assert (SP : sharing_points t = secret_channel :: pts) by reflexivity.
  assert (Wp : Forall is_word pts) by (rewrite SP in P3; inversion P3; auto).
  exists (map (gf_eval c) pts). split.
  - split; [unfold pts; rewrite !map_length; apply seq_length|]. split.
    + apply Forall_map, Forall_forall. intros o Ho. apply WE; auto. rewrite Forall_forall in Wp. auto.
    + rewrite <- C4. apply map_ext_in. intros o Ho. apply (word_pol_list t); auto; [rewrite Forall_forall in Wi; auto|]. rewrite SP. cbn [map]. rewrite C3. reflexivity.
  - intros r (R1 & R2 & R3). destruct (interp_list t (sharing_points t) (s :: r)) as (d & D1 & D2 & D3); auto; [cbn [length]; lia|].
    rewrite SP in D3. cbn [map] in D3. injection D3 as D3 D4.
    assert (AG : forall z, is_word z -> gf_eval c z = gf_eval d z).
    { intros z Hz. apply (gf_interpolant_unique t c d (secret_channel :: ids) z); [exact C1|exact D1|apply Forall_is_word; exact C2|apply Forall_is_word; exact D2|cbn [length]; lia|apply Forall_is_word; constructor; auto|constructor; auto|apply is_word_iff; exact Hz|].
      intros i Hi. destruct i as [|i]; cbn [zat nth]; [congruence|]. change (gf_eval c (nth i ids 0%Z) = gf_eval d (nth i ids 0%Z)). assert (In (nth i ids 0%Z) ids) by (apply nth_In; lia).
      assert (E : map (gf_eval c) ids = map (gf_eval d) ids).
      { rewrite C4, <- R3. apply map_ext_in. intros o Ho. apply (word_pol_list t); auto; [rewrite Forall_forall in Wi; auto|]. rewrite SP. cbn [map]. rewrite D3, D4. reflexivity. }
      apply (ext_in_map E). exact H. }
    rewrite <- D4. apply map_ext_in. intros o Ho. apply AG. rewrite Forall_forall in Wp. auto.
Qed.
Example C89_example : (length [5; 9] = 3 - 1)%nat /\ NoDup [5; 9]%Z /\ ~ In secret_channel [5; 9]%Z /\ map (fun o => ida_word 3 (sharing_points 3) [1; 2; 3]%Z o) [5; 9]%Z <> map (fun o => ida_word 3 (sharing_points 3) [1; 2; 4]%Z o) [5; 9]%Z.
Proof. repeat split; [repeat constructor; cbn; lia|unfold secret_channel; cbn; lia|vm_compute; discriminate]. Qed.
(** The t-th share settles the secret. *)
Theorem C89_threshold_shares_settle : forall t ids s s' r r', (1 <= t)%nat -> (Z.of_nat t <= 2 ^ 32)%Z -> NoDup ids -> length ids = t -> Forall is_word ids ->
  is_word s -> is_word s' -> length r = (t - 1)%nat -> length r' = (t - 1)%nat -> Forall is_word r -> Forall is_word r' ->
  map (fun o => ida_word t (sharing_points t) (s :: r) o) ids = map (fun o => ida_word t (sharing_points t) (s' :: r') o) ids -> s = s' /\ r = r'.
Proof.
  intros t ids s s' r r' Ht Hw ND HL Wi Ws Ws' L1 L2 W1 W2 E. destruct (word_points t Ht Hw) as (P1 & P2 & P3).
  destruct (interp_list t (sharing_points t) (s :: r)) as (c & C1 & C2 & C3); auto; [cbn [length]; lia|]. destruct (interp_list t (sharing_points t) (s' :: r')) as (d & D1 & D2 & D3); auto; [cbn [length]; lia|].
  assert (E' : map (gf_eval c) ids = map (gf_eval d) ids).
  { transitivity (map (fun o => ida_word t (sharing_points t) (s :: r) o) ids); [|rewrite E]; apply map_ext_in; intros o Ho; [symmetry|]; apply (word_pol_list t); auto; rewrite Forall_forall in Wi; auto. }
  assert (AG : s :: r = s' :: r'); [|injection AG; auto]. rewrite <- C3, <- D3. apply map_ext_in. intros z Hz.
  apply (gf_interpolant_unique t c d ids z); [exact C1|exact D1|apply Forall_is_word; exact C2|apply Forall_is_word; exact D2|exact HL|apply Forall_is_word; exact Wi|exact ND|apply is_word_iff; rewrite Forall_forall in P3; apply P3; exact Hz|].
  intros i Hi. unfold zat. apply (ext_in_map E'). apply nth_In. lia.
Qed.

(* ---------------------------------------------------------------- C90 *)
(** The product tree of PrepareBulkPolynomialInterpolationAt and the weights give the value of the polynomial. *)
Theorem C90_bulk_interpolation : forall c pos x y n, (1 <= n)%nat -> (length c <= n)%nat -> Forall is_word c -> is_word pos -> length x = n -> length y = n -> Forall is_word x -> Forall is_word y ->
  NoDup x -> ~ In pos x -> (forall i, (i < n)%nat -> nth i y 0%Z = gf_eval c (nth i x 0%Z)) ->
  gf_bulk_at y (gf_prep_at pos x (gf_prep_w x n) n) n = gf_eval c pos.
Proof. intros c pos x y n Hn Lc Wc Wp Lx Ly Wx Wy ND NI H. apply gf_bulk_interpolation; auto; try (apply Forall_is_word; auto). Qed.
Theorem C90_interpolant_exists : forall x y n, (1 <= n)%nat -> length x = n -> length y = n -> Forall is_word x -> Forall is_word y -> NoDup x ->
  exists c, length c = n /\ Forall is_word c /\ forall i, (i < n)%nat -> gf_eval c (nth i x 0%Z) = nth i y 0%Z.
Proof. intros x y n Hn Lx Ly Wx Wy ND. destruct (gf_interpolant_exists x y n) as (c & C1 & C2 & C3); auto; try (apply Forall_is_word; auto). exists c. split; auto. Qed.
Example C90_example : gf_bulk_at (map (gf_eval [7; 5; 3]%Z) [1; 2; 4]%Z) (gf_prep_at 9 [1; 2; 4]%Z (gf_prep_w [1; 2; 4]%Z 3) 3) 3 = gf_eval [7; 5; 3]%Z 9%Z.
Proof. vm_compute. reflexivity. Qed.

Print Assumptions C54_padding_removed.
Print Assumptions C54_one_piece.
Print Assumptions C54_no_bad_split.
Print Assumptions C54_split_refuted.
Print Assumptions C54_message_end_refuted.
Print Assumptions C54_overread_refuted.
Print Assumptions C55_secret_recovered.
Print Assumptions C55_unpadded_secret_recovered.
Print Assumptions C55_new_object_idle.
Print Assumptions C55_shares.
Print Assumptions C55_information_recovered_partial.
Print Assumptions C55_unpadded_information_recovered.
Print Assumptions C55_information_node_refuted.
Print Assumptions C55_second_message_refuted.
Print Assumptions C89_fewer_shares_say_nothing.
Print Assumptions C89_threshold_shares_settle.
Print Assumptions C90_bulk_interpolation.
Print Assumptions C90_interpolant_exists.
