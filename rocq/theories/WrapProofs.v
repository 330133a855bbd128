(** WrapProofs: the decompressors around Inflator. *)
From Coq Require Import ZArith List Bool Lia Arith.
From Verif Require Import Base BitioModel BitioSpec BitioProofs BitioStream HuffmanModel HuffmanSpec
  WindowModel WindowSpec WindowProofs InflateModel InflateSpec InflateBits InflateHeader InflateBody InflateProofs
  InflateStream WrapModel.
Import ListNotations.
Open Scope nat_scope.

(** * The data of a stream consists of bytes *)
Lemma lz_copy_bytes : forall n d h, bytes h -> bytes (lz_copy n d h).
Proof.
  induction n as [|n IH]; intros d h H; cbn [lz_copy]; auto. apply IH. apply Forall_app. split; auto.
  constructor; [|constructor]. destruct (Nat.lt_ge_cases (length h - d) (length h)) as [L|L].
  - eapply Forall_forall; [exact H|apply nth_In; exact L].
  - rewrite nth_overflow by lia. unfold byte. lia.
Qed.

Lemma symbols_bytes : forall b W lit dist h s h2 s2, symbols b W lit dist h s h2 s2 -> bytes h -> bytes h2.
Proof.
  intros b W lit dist h s h2 s2 H. induction H; intros B; auto.
  - apply IHsymbols. apply Forall_app. split; auto. constructor; [unfold byte; lia|constructor].
  - apply IHsymbols. apply lz_copy_bytes. exact B.
Qed.

Lemma block_bytes : forall b W t h s h2 s2, block b W t h s h2 s2 -> bytes h -> bytes h2.
Proof.
  intros b W t h s h2 s2 H B. destruct H.
  - apply Forall_app. split; auto.
  - eapply symbols_bytes; eauto.
  - eapply symbols_bytes; eauto.
Qed.

Lemma inflates_bytes : forall b W h s h2 s2, inflates b W h s h2 s2 -> bytes h -> bytes h2.
Proof.
  intros b W h s h2 s2 H. induction H; intros B.
  - eapply block_bytes; eauto.
  - apply IHinflates. eapply block_bytes; eauto.
Qed.

(** * The blocks *)
Lemma blocks_spec : forall W flush, 257 <= W ->
  forall fuel lits dists s h, inv W lits dists s h -> f_state s <> PRE_STREAM -> f_state s <> AFTER_END -> pmeasure s < fuel ->
  match blocks fuel flush s with
  | Fine s' => exists lits' dists' h', inv W lits' dists' s' h' /\ f_state s' <> PRE_STREAM /\ f_state s' <> AFTER_END
      /\ (forall t hend send, whole t -> accepts false W lits' dists' s' h' (rbits (f_rd s') ++ t) hend send ->
            accepts false W lits dists s h (rbits (f_rd s) ++ t) hend send)
      /\ (forall t hend send, whole t -> accepts true W lits dists s h (rbits (f_rd s) ++ t) hend send ->
            accepts true W lits' dists' s' h' (rbits (f_rd s') ++ t) hend send)
      /\ (flush = true -> f_state s' <> POST_STREAM -> forall hend send,
            accepts true W lits' dists' s' h' (rbits (f_rd s')) hend send -> length send < 24)
  | _ => forall t hend send, whole t -> flush = false \/ t = [] ->
           ~ accepts true W lits dists s h (rbits (f_rd s) ++ t) hend send
  end.
Proof.
  intros W flush HW. induction fuel as [|fuel IH]; intros lits dists s h HV N1 N2 HM; [lia|].
  cbn [blocks]. unfold inv in HV. unfold pmeasure in HM. destruct (f_state s) eqn:ES.
  - congruence.
  - (* WAIT_HEADER *)
    destruct (Nat.ltb_spec (length (r_rest (f_rd s))) (if flush then 1 else max_header_size)) as [L|G].
    + exists lits, dists, h. split; [unfold inv; rewrite ES; exact HV|]. split; [congruence|]. split; [congruence|]. split; auto. split; auto.
      intros -> _ hend send H. unfold accepts in H. rewrite ES in H. apply inflates_len in H.
      rewrite rbits_length in H. unfold bits_left in H. destruct HV as ([_ C22] & _). lia.
    + pose proof (decode_header_spec W s h flush HW HV) as DH.
      assert (Q1 : 1 <= length (r_rest (f_rd s))) by (change max_header_size with 591 in G; destruct flush; lia).
      specialize (DH Q1 ltac:(intros E; rewrite E in G; exact G)).
      unfold accepts. rewrite ES.
      destruct (decode_header s) as [s1| | |]; cbn [bind]; auto.
      destruct DH as (lits1 & dists1 & B1 & L1 & X1 & X2).
      assert (S1 : f_state s1 = DECODING_BODY) by apply B1.
      assert (V1 : inv W lits1 dists1 s1 h) by (unfold inv; rewrite S1; exact B1).
      specialize (IH lits1 dists1 s1 h V1 ltac:(congruence) ltac:(congruence) ltac:(unfold pmeasure; rewrite S1; lia)).
      assert (A1 : forall b x hend send, accepts b W lits1 dists1 s1 h x hend send = body_accepts b W lits1 dists1 s1 h x hend send).
      { intros. unfold accepts. rewrite S1. reflexivity. }
      destruct (blocks fuel flush s1) as [s2| | |].
      * destruct IH as (lits2 & dists2 & h2 & V2 & K1 & K2 & Y1 & Y2 & Y4). exists lits2, dists2, h2.
        split; auto. split; auto. split; auto. split; [|split; auto].
        { intros t hend send Ht H. apply X1; auto. rewrite <- A1. apply Y1; auto. }
        { intros t hend send Ht H. apply Y2; auto. rewrite A1. apply X2; auto. }
      * intros t hend send Ht TT H. apply (IH t hend send Ht TT). rewrite A1. auto.
      * intros t hend send Ht TT H. apply (IH t hend send Ht TT). rewrite A1. auto.
      * intros t hend send Ht TT H. apply (IH t hend send Ht TT). rewrite A1. auto.
  - (* DECODING_BODY *)
    pose proof (decode_body_spec W lits dists s h HW HV) as DB.
    assert (A0 : forall b x hend send, accepts b W lits dists s h x hend send = body_accepts b W lits dists s h x hend send).
    { intros. unfold accepts. rewrite ES. reflexivity. }
    destruct (decode_body s) as [[s1 e]| | |]; cbn [bind]; try contradiction.
    2:{ intros t hend send Ht TT H. rewrite A0 in H. exact (DB t hend send H). }
    destruct e.
    + destruct DB as (h1 & L1 & DB). destruct (f_eof s).
      * destruct DB as (S1 & P1 & X1 & X2).
        assert (V1 : inv W lits dists s1 h1) by (unfold inv; rewrite S1; exact P1).
        specialize (IH lits dists s1 h1 V1 ltac:(congruence) ltac:(congruence) ltac:(unfold pmeasure; rewrite S1; lia)).
        assert (A1 : forall b x hend send, accepts b W lits dists s1 h1 x hend send <-> hend = h1 /\ send = x).
        { intros. unfold accepts. rewrite S1. destruct P1 as (_ & _ & _ & P1). rewrite P1. reflexivity. }
        destruct (blocks fuel flush s1) as [s2| | |].
        { destruct IH as (lits2 & dists2 & h2 & V2 & K1 & K2 & Y1 & Y2 & Y4). exists lits2, dists2, h2.
          split; auto. split; auto. split; auto. split; [|split; auto].
          - intros t hend send Ht H. rewrite A0. apply Y1 in H; auto. apply A1 in H as [-> ->]. apply X1. auto.
          - intros t hend send Ht H. apply Y2; auto. apply A1. rewrite A0 in H. apply X2; auto. }
        all: intros t hend send Ht TT H; apply (IH t hend send Ht TT); apply A1; rewrite A0 in H; apply X2; auto.
      * destruct DB as (S1 & P1 & X1 & X2).
        assert (V1 : inv W lits dists s1 h1) by (unfold inv; rewrite S1; exact P1).
        specialize (IH lits dists s1 h1 V1 ltac:(congruence) ltac:(congruence) ltac:(unfold pmeasure; rewrite S1; lia)).
        assert (A1 : forall b x hend send, accepts b W lits dists s1 h1 x hend send = inflates b W h1 x hend send).
        { intros. unfold accepts. rewrite S1. reflexivity. }
        destruct (blocks fuel flush s1) as [s2| | |].
        { destruct IH as (lits2 & dists2 & h2 & V2 & K1 & K2 & Y1 & Y2 & Y4). exists lits2, dists2, h2.
          split; auto. split; auto. split; auto. split; [|split; auto].
          - intros t hend send Ht H. rewrite A0. apply X1. rewrite <- A1. apply Y1; auto.
          - intros t hend send Ht H. apply Y2; auto. rewrite A1. rewrite A0 in H. apply X2; auto. }
        all: intros t hend send Ht TT H; apply (IH t hend send Ht TT); rewrite A1; rewrite A0 in H; apply X2; auto.
    + destruct DB as (h1 & B1 & L1 & X1 & X2 & X3).
      assert (S1 : f_state s1 = DECODING_BODY) by apply B1.
      assert (A1 : forall b x hend send, accepts b W lits dists s1 h1 x hend send = body_accepts b W lits dists s1 h1 x hend send).
      { intros. unfold accepts. rewrite S1. reflexivity. }
      exists lits, dists, h1. split; [unfold inv; rewrite S1; exact B1|]. split; [congruence|]. split; [congruence|].
      split; [intros t hend send Ht; rewrite A0, A1; apply X1|]. split; [intros t hend send Ht; rewrite A0, A1; apply X2|].
      intros _ _ hend send H. rewrite A1 in H. rewrite (X3 _ _ H). cbn [length]. lia.
  - (* POST_STREAM *)
    exists lits, dists, h. split; [unfold inv; rewrite ES; exact HV|]. split; [congruence|]. split; [congruence|].
    split; auto. split; auto. intros _ N. congruence.
  - congruence.
Qed.

Lemma blocks_idle : forall fuel flush s, (f_state s = PRE_STREAM \/ f_state s = AFTER_END \/ f_state s = POST_STREAM) ->
  0 < fuel -> blocks fuel flush s = Fine s.
Proof. intros [|fuel] flush s H F; [lia|]. cbn [blocks]. destruct H as [-> | [-> | ->]]; reflexivity. Qed.

(** * Pieces *)
Section Wrapped.
Variable M : Type.
Variable hdr : list Z -> wout (nat * M * list Z).
Variable tail : list Z -> list Z -> wout (list Z).
Variables hmax tmax : nat.
Variable init : nat -> list Z.
(** The whole input. *)
Variable all : list Z.

Hypothesis init_size : forall W, length (init W) = W.
Hypothesis hdr_more : forall q W m r e, hdr q = Got (W, m, r) -> hdr (q ++ e) = Got (W, m, r ++ e).
Hypothesis hdr_rest : forall q W m r, hdr q = Got (W, m, r) -> exists p, q = p ++ r.
Hypothesis hdr_less : forall q e W m r, hdr (q ++ e) = Got (W, m, r) -> length (q ++ e) <= length q + length r ->
  exists r', hdr q = Got (W, m, r').
Hypothesis tail_more : forall d q r e, tail d q = Got r -> tail d (q ++ e) = Got (r ++ e).
Hypothesis tail_less : forall d q e r, tail d (q ++ e) = Got r -> tmax <= length q -> exists r', tail d q = Got r'.
Hypothesis tail_long : forall d q r, tail d q = Got r -> 3 <= length q.
Hypothesis all_bytes : bytes all.
Hypothesis all_window : forall W m r, hdr all = Got (W, m, r) -> 257 <= W.

(** A stream as a whole. *)
Definition stream_of (b : bool) (comp data rest : list Z) (m : M) : Prop :=
  exists W r tl, hdr comp = Got (W, m, r) /\ (b = true -> length comp <= hmax + length r)
    /\ bytes tl /\ deflated b W r data tl /\ tail data tl = Got rest.

(** The state after the front [c] of the input. *)
Definition winv (c : list Z) (z : wstate M) : Prop :=
  (exists e, all = c ++ e) /\
  match f_state (fst z) with
  | PRE_STREAM => z = (more inflator_new c, None)
  | AFTER_END => exists W m r tl, hdr c = Got (W, m, r) /\ snd z = Some m
      /\ bytes tl /\ (forall t, whole t -> inflates false W [] (stream r ++ t) (wsent (f_win (fst z))) (stream tl ++ t))
      /\ tail (wsent (f_win (fst z))) tl = Got (f_after (fst z))
      /\ r_rest (f_rd (fst z)) = []
      /\ (forall e data rest m', all = c ++ e -> stream_of true all data rest m' ->
            data = wsent (f_win (fst z)) /\ rest = f_after (fst z) ++ e)
  | _ => exists W m r lits dists h, hdr c = Got (W, m, r) /\ snd z = Some m
      /\ inv W lits dists (fst z) h
      /\ (forall t hend send, whole t -> accepts false W lits dists (fst z) h (rbits (f_rd (fst z)) ++ t) hend send ->
            inflates false W [] (stream r ++ t) hend send)
      /\ (forall t hend send, whole t -> inflates true W [] (stream r ++ t) hend send ->
            accepts true W lits dists (fst z) h (rbits (f_rd (fst z)) ++ t) hend send)
  end.

Lemma more_more : forall s p q, more (more s p) q = more s (p ++ q).
Proof. intros. unfold more, set_rd. cbn [f_rd r_buf r_cnt r_rest f_state f_win f_eof f_type f_stored f_next f_literal f_distance f_lit f_dist f_flit f_fdist f_after]. rewrite app_assoc. reflexivity. Qed.

Lemma bytes_front : forall c e, all = c ++ e -> bytes c /\ bytes e.
Proof. intros c e E. rewrite E in all_bytes. apply bytes_app in all_bytes. exact all_bytes. Qed.

(** From the start of the stream on: the state [z] holds all of [c]. *)
Lemma after_header : forall c e s m flush W r lits dists h, all = c ++ e -> (flush = true -> e = []) ->
  hdr c = Got (W, m, r) -> inv W lits dists s h -> f_state s <> PRE_STREAM -> f_state s <> AFTER_END ->
  (forall t hend send, whole t -> accepts false W lits dists s h (rbits (f_rd s) ++ t) hend send ->
     inflates false W [] (stream r ++ t) hend send) ->
  (forall t hend send, whole t -> inflates true W [] (stream r ++ t) hend send ->
     accepts true W lits dists s h (rbits (f_rd s) ++ t) hend send) ->
  match wbind (lift (blocks (2 * bits_left (f_rd s) + 6) flush s)) (fun s =>
        wbind (post_stream M tail tmax flush (s, Some m)) (fun z => Got (after_end M z))) with
  | Got z => winv c z /\ f_state (fst z) <> PRE_STREAM
     /\ (flush = true -> f_state (fst z) <> AFTER_END -> forall data rest m', ~ stream_of true all data rest m')
  | Refused _ => forall data rest m', ~ stream_of true all data rest m'
  end.
Proof.
  intros c e s m flush W r lits dists h EA FE HC HV N1 N2 X1 X2.
  destruct (bytes_front c e EA) as [BC BE].
  assert (HALL : hdr all = Got (W, m, r ++ e)) by (rewrite EA; apply hdr_more; exact HC).
  assert (HW : 257 <= W) by (eapply all_window; exact HALL).
  destruct (hdr_rest c W m r HC) as (p & EP). assert (BR : bytes r) by (rewrite EP in BC; apply bytes_app in BC; apply BC).
  (* a good stream is one of this header *)
  assert (GOOD : forall data rest m', stream_of true all data rest m' ->
            exists tl, bytes tl /\ inflates true W [] (stream r ++ stream e) data (stream tl) /\ tail data tl = Got rest).
  { intros data rest m' (W' & r' & tl & Y1 & _ & Y2 & Y3 & Y4). rewrite HALL in Y1. injection Y1 as <- <- <-.
    exists tl. split; auto. split; auto. unfold deflated in Y3. rewrite stream_app in Y3. exact Y3. }
  pose proof (blocks_spec W flush HW _ lits dists s h HV N1 N2 (pmeasure_bound s)) as BS.
  assert (SE : flush = false \/ stream e = []).
  { destruct flush; auto. rewrite (FE eq_refl). right. reflexivity. }
  destruct (blocks _ flush s) as [s1| | |]; cbn [lift wbind].
  2,3,4: intros data rest m' G; destruct (GOOD _ _ _ G) as (tl & T1 & T2 & T3);
         exact (BS (stream e) _ _ (whole_stream e) SE (X2 _ _ _ (whole_stream e) T2)).
  destruct BS as (lits1 & dists1 & h1 & V1 & K1 & K2 & Y1 & Y2 & Y4).
  assert (Z1 : forall t hend send, whole t -> accepts false W lits1 dists1 s1 h1 (rbits (f_rd s1) ++ t) hend send ->
     inflates false W [] (stream r ++ t) hend send) by auto.
  assert (Z2 : forall t hend send, whole t -> inflates true W [] (stream r ++ t) hend send ->
     accepts true W lits1 dists1 s1 h1 (rbits (f_rd s1) ++ t) hend send) by auto.
  assert (STAY : f_state s1 <> POST_STREAM \/ (f_state s1 = POST_STREAM /\ flush = false) ->
     winv c (after_end M (s1, Some m)) /\ f_state (fst (after_end M (s1, Some m))) <> PRE_STREAM
     /\ (flush = true -> f_state (fst (after_end M (s1, Some m))) <> AFTER_END -> forall data rest m', ~ stream_of true all data rest m')).
  { intros C. assert (EQ : after_end M (s1, Some m) = (s1, Some m)) by (unfold after_end; destruct (f_state s1); congruence).
    rewrite EQ. split; [|split; [exact K1|]].
    - split; [eauto|]. cbn [fst snd].
      assert (BODY : exists (W0 : nat) (m0 : M) (r0 : list Z) (lits0 dists0 : list nat) (h0 : list Z), hdr c = Got (W0, m0, r0) /\ Some m = Some m0
        /\ inv W0 lits0 dists0 s1 h0
        /\ (forall t hend send, whole t -> accepts false W0 lits0 dists0 s1 h0 (rbits (f_rd s1) ++ t) hend send ->
            inflates false W0 [] (stream r0 ++ t) hend send)
        /\ (forall t hend send, whole t -> inflates true W0 [] (stream r0 ++ t) hend send ->
            accepts true W0 lits0 dists0 s1 h0 (rbits (f_rd s1) ++ t) hend send)).
      { exists W, m, r, lits1, dists1, h1. auto 10. }
      destruct (f_state s1); try exact BODY; congruence.
    - intros FT _ data rest m' G. destruct C as [C|[_ C]]; [|congruence].
      destruct (GOOD _ _ _ G) as (tl & T1 & T2 & T3). rewrite (FE FT) in T2.
      specialize (Z2 [] _ _ whole_nil T2). rewrite app_nil_r in Z2.
      specialize (Y4 FT C _ _ Z2). rewrite stream_length in Y4. pose proof (tail_long _ _ _ T3). lia. }
  unfold post_stream. destruct (f_state s1) eqn:S1; try (cbn [wbind]; apply STAY; left; congruence).
  destruct (negb flush && (length (r_rest (f_rd s1)) <? tmax)) eqn:WAIT.
  { apply andb_prop in WAIT as [WT _]. cbn [wbind]. apply STAY. right. split; [reflexivity|]. destruct flush; [discriminate|reflexivity]. }
  unfold inv in V1. rewrite S1 in V1. destruct V1 as ([[R1 [R2 R3]] R4] & C1 & WS & AF).
  assert (RB : rbits (f_rd s1) = stream (r_rest (f_rd s1))) by (unfold rbits; rewrite C1; reflexivity).
  remember (r_rest (f_rd s1)) as q eqn:EQ.
  assert (ACC : forall b x hend send, accepts b W lits1 dists1 s1 h1 x hend send <-> hend = h1 /\ send = x).
  { intros. unfold accepts. rewrite S1, AF. reflexivity. }
  assert (GOOD2 : forall data rest m', stream_of true all data rest m' -> data = h1 /\ tail h1 (q ++ e) = Got rest).
  { intros data rest m' G. destruct (GOOD _ _ _ G) as (tl & T1 & T2 & T3).
    apply (Z2 _ _ _ (whole_stream e)) in T2. apply ACC in T2 as [-> T2]. split; auto.
    rewrite RB, <- stream_app in T2. apply stream_inj in T2; auto; [subst tl; exact T3|apply bytes_app; auto]. }
  assert (LQ : tmax <= length q \/ e = []).
  { destruct flush; [right; auto|]. cbn [negb andb] in WAIT. apply Nat.ltb_ge in WAIT. left. exact WAIT. }
  rewrite WS. destruct (tail h1 q) as [rest|err] eqn:ET; cbn [wbind].
  - split; [|split; [discriminate|]].
    + split; [eauto|]. cbn [after_end fst snd f_state set_state set_rest set_rd f_win f_after f_rd r_rest r_buf r_cnt].
      exists W, m, r, q. split; [exact HC|]. split; [reflexivity|]. split; [exact R3|]. rewrite WS, AF. cbn [app].
      split; [|split; [exact ET|split; [reflexivity|]]].
      * intros t Ht. apply Z1; [exact Ht|]. apply ACC. rewrite RB. auto.
      * intros e' data rest' m' EA' G. rewrite EA in EA'. apply app_inv_head in EA'. subst e'.
        destruct (GOOD2 _ _ _ G) as [-> G2]. split; auto. rewrite (tail_more _ _ _ e ET) in G2. congruence.
    + intros _ N. destruct N. reflexivity.
  - intros data rest m' G. destruct (GOOD2 _ _ _ G) as [-> G2]. destruct LQ as [LQ| ->].
    + destruct (tail_less _ _ _ _ G2 LQ) as (r' & E'). congruence.
    + rewrite app_nil_r in G2. congruence.
Qed.

Lemma wput_spec : forall c p e z flush, all = c ++ p ++ e -> (flush = true -> e = []) -> winv c z ->
  match wput M hdr tail hmax tmax init z p flush with
  | Got z => winv (c ++ p) z /\ (flush = true -> f_state (fst z) = AFTER_END)
  | Refused _ => forall data rest m', ~ stream_of true all data rest m'
  end.
Proof.
  intros c p e [s m] flush EA FE [_ HV].
  assert (EA' : all = (c ++ p) ++ e) by (rewrite <- app_assoc; exact EA).
  destruct (bytes_front _ _ EA') as [BC BE].
  assert (BP : bytes p) by (apply bytes_app in BC; apply BC).
  (* what Put2 does with the outcome of ProcessInput *)
  assert (FIN : forall x : wout (wstate M),
     match x with
     | Got z => winv (c ++ p) z /\ (flush = true -> f_state (fst z) <> PRE_STREAM)
         /\ (flush = true -> f_state (fst z) <> AFTER_END -> forall data rest m', ~ stream_of true all data rest m')
     | Refused _ => forall data rest m', ~ stream_of true all data rest m'
     end ->
     match wbind x (fun z => if flush then match f_state (fst z) with PRE_STREAM | AFTER_END => Got z | _ => Refused EEnd end else Got z) with
     | Got z => winv (c ++ p) z /\ (flush = true -> f_state (fst z) = AFTER_END)
     | Refused _ => forall data rest m', ~ stream_of true all data rest m'
     end).
  { intros [z|err] H; cbn [wbind]; [|exact H]. destruct H as (H1 & H2 & H3). destruct flush; [|split; [exact H1|discriminate]].
    specialize (H2 eq_refl). specialize (H3 eq_refl).
    destruct (f_state (fst z)) eqn:EZ; try (apply H3; discriminate); [congruence|split; [exact H1|auto]]. }
  unfold wput. apply FIN. clear FIN. cbn [fst snd] in HV.
  change (set_rest s (r_rest (f_rd s) ++ p)) with (more s p). unfold wprocess.
  destruct (f_state s) eqn:ES.
  - (* PRE_STREAM *)
    injection HV as -> ->. rewrite more_more. unfold pre_stream. change (f_state (more inflator_new (c ++ p))) with PRE_STREAM.
    change (r_rest (f_rd (more inflator_new (c ++ p)))) with (c ++ p). cbv iota.
    destruct (negb flush && (length (c ++ p) <? hmax)) eqn:WAIT.
    + apply andb_prop in WAIT as [WT _]. assert (FF : flush = false) by (destruct flush; [discriminate|reflexivity]).
      cbn [wbind fst snd]. rewrite blocks_idle by (auto; lia). cbn [lift wbind post_stream]. change (f_state (more inflator_new (c ++ p))) with PRE_STREAM.
      cbn [wbind after_end]. change (f_state (more inflator_new (c ++ p))) with PRE_STREAM. cbv iota.
      split; [|split; intros F; congruence]. split; [eauto|]. reflexivity.
    + destruct (hdr (c ++ p)) as [[[W m] r]|err] eqn:EH; cbn [wbind].
      * cbn [fst snd]. match goal with |- context [blocks _ _ ?x] => remember x as s1 eqn:E1 end.
        destruct (hdr_rest _ _ _ _ EH) as (pp & EP). assert (BR : bytes r) by (rewrite EP in BC; apply bytes_app in BC; apply BC).
        assert (W0 : 257 <= W). { apply (all_window W m (r ++ e)). rewrite EA'. apply hdr_more. exact EH. }
        assert (S1 : f_state s1 = WAIT_HEADER) by (subst s1; reflexivity).
        assert (RB : rbits (f_rd s1) = stream r) by (subst s1; reflexivity).
        assert (V1 : inv W [] [] s1 []).
        { unfold inv. rewrite S1, E1. split; [|split; [|split]].
          - split; [|cbn; lia]. split; [cbn; lia|]. split; [cbn; lia|exact BR].
          - cbn [set_win f_win]. change (wsent (f_win (more inflator_new (c ++ p)))) with (@nil Z).
            pose proof (rel_new (init W) ltac:(rewrite init_size; lia)) as RN. rewrite init_size in RN. exact RN.
          - split; intros d E; discriminate.
          - reflexivity. }
        pose proof (after_header (c ++ p) e s1 m flush W r [] [] [] EA' FE EH V1 ltac:(congruence) ltac:(congruence)) as AH.
        specialize (AH ltac:(intros t hend send Ht; unfold accepts; rewrite S1, RB; auto) ltac:(intros t hend send Ht; unfold accepts; rewrite S1, RB; auto)).
        destruct (wbind _ _) as [z|err]; [|exact AH]. destruct AH as (A1 & A2 & A3). auto.
      * intros data rest m' (W' & r' & tl & Y1 & Y0 & _). specialize (Y0 eq_refl). rewrite EA' in Y1, Y0.
        assert (LQ : hmax <= length (c ++ p) \/ e = []).
        { destruct flush; [right; auto|]. cbn [negb andb] in WAIT. apply Nat.ltb_ge in WAIT. left. exact WAIT. }
        destruct LQ as [LQ| ->]; [|rewrite app_nil_r in Y1; congruence].
        destruct (hdr_less _ _ _ _ _ Y1 ltac:(lia)) as (r2 & E2). congruence.
  - (* WAIT_HEADER *)
    destruct HV as (W & m0 & r & lits & dists & h & EH & Em & HV & X1 & X2). cbn [snd] in Em. subst m.
    unfold pre_stream. change (f_state (more s p)) with (f_state s). rewrite ES. cbn [wbind fst snd].
    pose proof (after_header (c ++ p) e (more s p) m0 flush W (r ++ p) lits dists h EA' FE (hdr_more _ _ _ _ p EH) (more_inv _ _ _ _ _ _ BP HV)
      ltac:(change (f_state (more s p)) with (f_state s); congruence) ltac:(change (f_state (more s p)) with (f_state s); congruence)) as AH.
    specialize (AH ltac:(intros t hend send Ht A; rewrite more_rbits, <- app_assoc in A; rewrite stream_app, <- app_assoc; apply X1; [apply whole_app; [apply whole_stream|exact Ht]|exact A])
      ltac:(intros t hend send Ht A; rewrite stream_app, <- app_assoc in A; rewrite more_rbits, <- app_assoc; apply (X2 (stream p ++ t)); [apply whole_app; [apply whole_stream|exact Ht]|exact A])).
    destruct (wbind _ _) as [z|err]; [|exact AH]. destruct AH as (A1 & A2 & A3). auto.
  - (* DECODING_BODY *)
    destruct HV as (W & m0 & r & lits & dists & h & EH & Em & HV & X1 & X2). cbn [snd] in Em. subst m.
    unfold pre_stream. change (f_state (more s p)) with (f_state s). rewrite ES. cbn [wbind fst snd].
    pose proof (after_header (c ++ p) e (more s p) m0 flush W (r ++ p) lits dists h EA' FE (hdr_more _ _ _ _ p EH) (more_inv _ _ _ _ _ _ BP HV)
      ltac:(change (f_state (more s p)) with (f_state s); congruence) ltac:(change (f_state (more s p)) with (f_state s); congruence)) as AH.
    specialize (AH ltac:(intros t hend send Ht A; rewrite more_rbits, <- app_assoc in A; rewrite stream_app, <- app_assoc; apply X1; [apply whole_app; [apply whole_stream|exact Ht]|exact A])
      ltac:(intros t hend send Ht A; rewrite stream_app, <- app_assoc in A; rewrite more_rbits, <- app_assoc; apply (X2 (stream p ++ t)); [apply whole_app; [apply whole_stream|exact Ht]|exact A])).
    destruct (wbind _ _) as [z|err]; [|exact AH]. destruct AH as (A1 & A2 & A3). auto.
  - (* POST_STREAM *)
    destruct HV as (W & m0 & r & lits & dists & h & EH & Em & HV & X1 & X2). cbn [snd] in Em. subst m.
    unfold pre_stream. change (f_state (more s p)) with (f_state s). rewrite ES. cbn [wbind fst snd].
    pose proof (after_header (c ++ p) e (more s p) m0 flush W (r ++ p) lits dists h EA' FE (hdr_more _ _ _ _ p EH) (more_inv _ _ _ _ _ _ BP HV)
      ltac:(change (f_state (more s p)) with (f_state s); congruence) ltac:(change (f_state (more s p)) with (f_state s); congruence)) as AH.
    specialize (AH ltac:(intros t hend send Ht A; rewrite more_rbits, <- app_assoc in A; rewrite stream_app, <- app_assoc; apply X1; [apply whole_app; [apply whole_stream|exact Ht]|exact A])
      ltac:(intros t hend send Ht A; rewrite stream_app, <- app_assoc in A; rewrite more_rbits, <- app_assoc; apply (X2 (stream p ++ t)); [apply whole_app; [apply whole_stream|exact Ht]|exact A])).
    destruct (wbind _ _) as [z|err]; [|exact AH]. destruct AH as (A1 & A2 & A3). auto.
  - (* AFTER_END *)
    destruct HV as (W & m0 & r & tl & EH & Em & BT & DF & ET & ER & U). cbn [snd] in Em. subst m.
    unfold pre_stream. change (f_state (more s p)) with (f_state s). rewrite ES. cbn [wbind fst snd].
    rewrite blocks_idle by (auto; lia). cbn [lift wbind]. unfold post_stream. change (f_state (more s p)) with (f_state s). rewrite ES.
    cbn [wbind]. unfold after_end. change (f_state (more s p)) with (f_state s). rewrite ES.
    split; [|split; intros _ N; [discriminate N|destruct N; reflexivity]].
    split; [eauto|]. cbn [fst snd f_state f_win f_after f_rd r_rest].
    change (r_rest (f_rd (more s p))) with (r_rest (f_rd s) ++ p). rewrite ER. cbn [app].
    change (f_win (more s p)) with (f_win s). change (f_after (more s p)) with (f_after s).
    exists W, m0, (r ++ p), (tl ++ p). split; [apply hdr_more; exact EH|]. split; [reflexivity|]. split; [apply bytes_app; auto|].
    split; [|split; [apply tail_more; exact ET|split; [reflexivity|]]].
    + intros t Ht. rewrite !stream_app, <- !app_assoc. apply DF. apply whole_app; [apply whole_stream|exact Ht].
    + intros e' data rest m' EE G. destruct (U (p ++ e') data rest m') as [-> ->]; [rewrite EE, app_assoc; reflexivity|exact G|].
      rewrite app_assoc. auto.
Qed.

Lemma wput_pieces_spec : forall pieces c e z, all = c ++ concat pieces ++ e -> winv c z ->
  match wput_pieces M hdr tail hmax tmax init z pieces with
  | Got z => winv (c ++ concat pieces) z
  | Refused _ => forall data rest m', ~ stream_of true all data rest m'
  end.
Proof.
  induction pieces as [|p pieces IH]; intros c e z EA HV; cbn [wput_pieces concat].
  - rewrite app_nil_r. exact HV.
  - cbn [concat] in EA. rewrite <- app_assoc in EA.
    pose proof (wput_spec c p (concat pieces ++ e) z false EA ltac:(discriminate) HV) as WP.
    destruct (wput _ _ _ _ _ _ z p false) as [z1|err]; cbn [wbind]; [|exact WP]. destruct WP as [V1 _].
    rewrite app_assoc. apply (IH (c ++ p) e z1); [rewrite EA, <- !app_assoc; reflexivity|exact V1].
Qed.

Lemma decompress_spec : forall pieces last, all = concat pieces ++ last ->
  match decompress M hdr tail hmax tmax init pieces last with
  | Got (data, rest, m) => (exists m0, m = Some m0 /\ stream_of false all data rest m0)
      /\ (forall data' rest' m', stream_of true all data' rest' m' -> data' = data /\ rest' = rest)
  | Refused _ => forall data rest m', ~ stream_of true all data rest m'
  end.
Proof.
  intros pieces last EA. unfold decompress.
  assert (V0 : winv [] (inflator_new, None)) by (split; [eauto|reflexivity]).
  pose proof (wput_pieces_spec pieces [] last _ EA V0) as WP. cbn [app] in WP.
  destruct (wput_pieces _ _ _ _ _ _ _ pieces) as [z1|err]; cbn [wbind]; [|exact WP].
  pose proof (wput_spec (concat pieces) last [] z1 true ltac:(rewrite app_nil_r; exact EA) ltac:(reflexivity) WP) as WL.
  destruct (wput _ _ _ _ _ _ z1 last true) as [[s m]|err]; cbn [wbind]; [|exact WL]. destruct WL as [[_ V] A].
  specialize (A eq_refl). cbn [fst snd] in *. rewrite A in V. rewrite <- EA in V.
  destruct V as (W & m0 & r & tl & EH & Em & BT & DF & ET & ER & U). split.
  - exists m0. split; [exact Em|]. exists W, r, tl. split; [exact EH|]. split; [discriminate|]. split; [exact BT|]. split; [|exact ET].
    unfold deflated. specialize (DF [] whole_nil). rewrite !app_nil_r in DF. exact DF.
  - intros data' rest' m' G. destruct (U [] data' rest' m' ltac:(rewrite app_nil_r; reflexivity) G) as [-> ->]. rewrite app_nil_r. auto.
Qed.
End Wrapped.
