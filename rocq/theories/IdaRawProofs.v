From Coq Require Import ZArith List Bool Arith Lia Permutation.
From Verif Require Import Base Gf2Spec Gf32Model Gf32Proofs Gf32FieldProofs InterpModel InterpSpec InterpGfProofs IdaModel IdaSpec IdaProofs IdaSinkProofs.
Import ListNotations.

Lemma is_word_iff : forall a, is_word a <-> word a. Proof. intros. unfold is_word, word. change (2 ^ 32)%Z with 4294967296%Z. rewrite ?W32. tauto. Qed.
Lemma Forall_is_word : forall l, Forall is_word l <-> Forall word l. Proof. intros. split; apply Forall_impl; intros a; apply is_word_iff. Qed.
Lemma word_at_word : forall s j, bytes s -> is_word (word_at s j).
Proof.
  intros s j H. unfold word_at, is_word. assert (B : bytes (firstn 4 (skipn (4 * j) s ++ repeat 0%Z 4))) by (apply bytes_firstn, bytes_app; split; [apply bytes_skipn; auto|apply bytes_repeat0]).
  pose proof (be_val_bounds _ B) as Q. rewrite firstn_length, app_length, repeat_length in Q. replace (Nat.min 4 (length (skipn (4 * j) s) + 4)) with 4%nat in Q by lia. exact Q.
Qed.
Lemma word_at_beyond : forall s j, (length s <= 4 * j)%nat -> word_at s j = 0%Z.
Proof. intros s j H. unfold word_at. rewrite skipn_all2 by lia. reflexivity. Qed.

(** the word of an output channel does not depend on the order of the input channels *)
Lemma ida_word_pol : forall t c ids (y : Z -> Z) o, (1 <= t)%nat -> length ids = t -> NoDup ids -> Forall is_word ids -> (length c <= t)%nat -> Forall is_word c -> is_word o -> (forall d, In d ids -> gf_eval c d = y d) ->
  ida_word t ids (map y ids) o = gf_eval c o.
Proof.
  intros t c ids y o Ht Li ND Wi Lc Wc Wo H. rewrite Forall_is_word in *. rewrite is_word_iff in Wo. unfold ida_word. destruct (index_of o ids) as [i|] eqn:Ei.
  - destruct (index_of_some _ _ _ Ei) as [H1 H2]. rewrite (nth_indep _ 0%Z (y 0%Z)) by (rewrite map_length; auto). rewrite map_nth, H2. symmetry. apply H. rewrite <- H2. apply nth_In. auto.
  - apply index_of_none in Ei. apply gf_bulk_interpolation; auto.
    + rewrite map_length. auto.
    + apply Forall_forall. intros w Hw. apply in_map_iff in Hw. destruct Hw as (d & <- & Hd). rewrite <- H by auto. apply gf_eval_word; auto. rewrite Forall_forall in Wi. auto.
    + intros i Hi. unfold zat. rewrite (nth_indep _ 0%Z (y 0%Z)) by (rewrite map_length; lia). rewrite map_nth. symmetry. apply H. apply nth_In. lia.
Qed.
Lemma incl_word : forall ids chan, incl ids chan -> Forall is_word chan -> Forall is_word ids. Proof. intros ids chan H W. rewrite Forall_forall in *. auto. Qed.
Lemma fits_word : forall pol t chan S outs, (1 <= t)%nat -> Forall is_word chan -> Forall is_word outs -> fits pol t chan S ->
  forall ids', NoDup ids' -> incl ids' chan -> length ids' = t -> forall j o, In o outs -> ida_word t ids' (map (fun c => word_at (S c) j) ids') o = gf_eval (pol j) o.
Proof.
  intros pol t chan S outs Ht Wc Wo HF ids' ND HI HL j o Ho. destruct (HF j) as (F1 & F2 & F3). apply ida_word_pol; auto.
  - apply (incl_word _ _ HI Wc).
  - rewrite Forall_forall in Wo. auto.
Qed.
(** such polynomials exist *)
Lemma fits_one : forall t chan (y : Z -> Z), (1 <= t)%nat -> length chan = t -> NoDup chan -> Forall is_word chan -> (forall c, In c chan -> is_word (y c)) ->
  exists c, (length c <= t)%nat /\ Forall is_word c /\ forall d, In d chan -> gf_eval c d = y d.
Proof.
  intros t chan y Ht HL ND Wc Wy. rewrite Forall_is_word in Wc. destruct (gf_interpolant_exists chan (map y chan) t Ht HL) as (c & L & Wcc & H); auto.
  - rewrite map_length. auto.
  - apply Forall_forall. intros w Hw. apply in_map_iff in Hw. destruct Hw as (d & <- & Hd). apply (proj1 (is_word_iff _)). auto.
  - exists c. split; [lia|]. split; [apply Forall_is_word; auto|]. intros d Hd. destruct (In_nth _ _ 0%Z Hd) as (i & Hi & <-). specialize (H i ltac:(lia)). unfold zat in H. rewrite H.
    rewrite (nth_indep _ 0%Z (y 0%Z)) by (rewrite map_length; lia). apply map_nth.
Qed.
Lemma fits_exists : forall t chan S, (1 <= t)%nat -> length chan = t -> NoDup chan -> Forall is_word chan -> (forall c, In c chan -> bytes (S c)) -> exists pol, fits pol t chan S.
Proof.
  intros t chan S Ht HL ND Wc HB.
  assert (Q : forall K, exists pol : nat -> list Z, forall j, (j < K)%nat -> (length (pol j) <= t)%nat /\ Forall is_word (pol j) /\ forall c, In c chan -> gf_eval (pol j) c = word_at (S c) j).
  { induction K as [|K (pol & IH)]; [exists (fun _ => []); lia|]. destruct (fits_one t chan (fun c => word_at (S c) K) Ht HL ND Wc) as (c & C1 & C2 & C3). { intros d Hd. apply word_at_word. auto. }
    exists (fun j => if Nat.eqb j K then c else pol j). intros j Hj. destruct (Nat.eqb_spec j K) as [->|N]; [auto|]. apply IH. lia. }
  destruct (Q (words_needed S chan)) as (pol & HP). exists (fun j => if Nat.ltb j (words_needed S chan) then pol j else []). intros j. destruct (Nat.ltb_spec j (words_needed S chan)) as [L|L]; [auto|].
  cbn [length]. split; [lia|]. split; [constructor|]. intros c Hc. rewrite word_at_beyond; [reflexivity|]. pose proof (words_needed_ge S chan c Hc). destruct (proj1 (words_for_spec _ _) (eq_refl (words_for (length (S c))))) as [Q1 _]. lia.
Qed.

Lemma ended_ends : forall l o, NoDup l -> ended (Some o) (map (fun c => IEnd (Some c)) l) = if in_dec Z.eq_dec o l then 1%nat else 0%nat.
Proof.
  induction l as [|a l IH]; intros o ND; [reflexivity|]. apply NoDup_cons_iff in ND. destruct ND as [N1 N2]. cbn [map ended]. rewrite IH by auto. destruct (Z.eqb_spec o a) as [->|N].
  - destruct (in_dec Z.eq_dec a l); [contradiction|]. destruct (in_dec Z.eq_dec a (a :: l)) as [|Q]; [reflexivity|]. exfalso. apply Q. cbn. auto.
  - destruct (in_dec Z.eq_dec o l) as [i|i]; destruct (in_dec Z.eq_dec o (a :: l)) as [j|j]; try reflexivity; exfalso; [apply j; cbn; auto|]. destruct j as [->|j]; auto.
Qed.
Lemma sent_ends : forall l c, sent c (map (fun c => IEnd (Some c)) l) = []. Proof. induction l; intros; cbn; auto. Qed.
Lemma ended_none_ends : forall l, ended None (map (fun c => IEnd (Some c)) l) = 0%nat. Proof. induction l; intros; cbn; auto. Qed.

(** one round of RawIDA, from the beginning *)
Theorem raw_round : forall cut t outs prop chan pol qu calls, (1 <= t)%nat -> NoDup chan -> length chan = t -> Forall is_word chan -> NoDup outs -> Forall is_word outs ->
  one_message_each chan calls -> fits pol t chan (fun c => stream c calls) ->
  exists evs, ida_run cut KRaw (Ida t [] 0 0 outs (repeat [] (length outs)) qu prop) calls = Some (Ida t [] 0 0 outs (repeat [] (length outs)) qu prop, evs) /\
    (forall o, In o outs -> sent (Some o) evs = word_bytes (fun j => gf_eval (pol j) o) 0 (words_needed (fun c => stream c calls) chan) /\ ended (Some o) evs = if (prop =? 0)%Z then 0%nat else 1%nat) /\
    (forall o, ~ In o outs -> sent (Some o) evs = [] /\ ended (Some o) evs = 0%nat) /\ sent None evs = [] /\ ended None evs = 0%nat.
Proof.
  intros cut t outs prop chan pol qu calls Ht ND HL Wc NDo Wo HM HF.
  destruct (round_run cut KRaw t outs prop chan Ht ND HL (fun c => stream c calls) (fun j o => gf_eval (pol j) o) (fits_word pol t chan _ outs Ht Wc Wo HF) calls chan (fun _ => []) (fun _ => false) [] 0%nat
    (Ida t [] 0 0 outs (repeat [] (length outs)) qu prop)) as (n & gs & o & e1 & e2 & o' & H1 & H2 & H3 & H4 & H5); auto.
  - apply inv_start; auto.
  - intros c. tauto.
  - cbn [Nat.add] in H5. rewrite <- H5. unfold st_of in H2. cbn [ia_oq ia_queue] in H2. destruct (snks_raw t outs prop (fun j o => gf_eval (pol j) o) gs qu 0 n NDo H4) as (e & E1 & A1 & A2 & A3 & A4). rewrite E1 in H2.
    assert (e1 = e /\ o = (repeat [] (length outs), qu)) as [-> ->] by (split; congruence).
    assert (H3' : o' = (repeat [] (length outs), qu) /\ e2 = (if (prop =? 0)%Z then [] else map (fun c => IEnd (Some c)) outs)) by (unfold snk_end in H3; cbn in H3; split; congruence). destruct H3' as [-> ->].
    rewrite H1. eexists. split; [reflexivity|].
    assert (S2 : forall c, sent c (if (prop =? 0)%Z then [] else map (fun c => IEnd (Some c)) outs) = []) by (intros c; destruct (prop =? 0)%Z; [reflexivity|apply sent_ends]).
    split; [|split; [|split]].
    + intros x Hx. rewrite sent_app, ended_app, S2, app_nil_r, A1, A4 by auto. split; [reflexivity|]. cbn [Nat.add]. destruct (prop =? 0)%Z; [reflexivity|]. rewrite ended_ends by auto. destruct (in_dec Z.eq_dec x outs); [reflexivity|contradiction].
    + intros x Hx. rewrite sent_app, ended_app, S2, app_nil_r, A2, A4 by auto. split; [reflexivity|]. cbn [Nat.add]. destruct (prop =? 0)%Z; [reflexivity|]. rewrite ended_ends by auto. destruct (in_dec Z.eq_dec x outs); [contradiction|reflexivity].
    + rewrite sent_app, S2, A3. reflexivity.
    + rewrite ended_app, A4. cbn [Nat.add]. destruct (prop =? 0)%Z; [reflexivity|apply ended_none_ends].
Qed.
