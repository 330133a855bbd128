(** InflateStream: the body of a block, the state machine, and pieces of input. *)
From Coq Require Import ZArith List Bool Lia Arith.
From Verif Require Import Base BitioModel BitioSpec BitioProofs BitioStream HuffmanModel HuffmanSpec
  WindowModel WindowSpec WindowProofs InflateModel InflateSpec InflateBits InflateHeader InflateBody InflateProofs.
Import ListNotations.
Open Scope nat_scope.

(** * What is left gets shorter *)
Lemma reads_len : forall lens s i s', reads true lens s i s' -> length s' <= length s.
Proof. intros lens s i s' [_ H]. cbn beta iota in H. rewrite H, app_length. lia. Qed.

Lemma symbols_len : forall W lit dist h s h2 s2, symbols true W lit dist h s h2 s2 -> length s2 <= length s.
Proof.
  intros W lit dist h s h2 s2 H. induction H.
  - eapply reads_len; eauto.
  - apply reads_len in H. lia.
  - apply reads_len in H, H3. apply field_len in H2, H5. lia.
Qed.

Lemma lengths_len : forall cl n acc s lens s', lengths true cl n acc s lens s' -> length s' <= length s.
Proof.
  intros cl n acc s lens s' H. induction H; auto.
  - apply reads_len in H0. lia.
  - apply reads_len in H0. apply field_len in H1. lia.
  - apply reads_len in H0. apply field_len in H1. lia.
  - apply reads_len in H0. apply field_len in H1. lia.
Qed.

Lemma dynamic_len : forall s lit dist s', dynamic true s lit dist s' -> length s' <= length s.
Proof.
  intros s lit dist s' (hlit & hdist & hclen & s1 & s2 & s3 & cl & s4 & lens & H1 & H2 & H3 & H4 & H5 & H6 & H7 & H8 & H9 & H10).
  apply field_len in H1, H2, H3. apply lengths_len in H9. apply (f_equal (@length bool)) in H7. rewrite app_length in H7. lia.
Qed.

Lemma align_len : forall s, length (align s) <= length s.
Proof. intros s. unfold align. rewrite skipn_length. lia. Qed.

Lemma block_len : forall W t h s h2 s2, block true W t h s h2 s2 -> length s2 <= length s.
Proof.
  intros W t h s h2 s2 H. inversion H; subst.
  - pose proof (align_len s). apply (f_equal (@length bool)) in H1. rewrite !app_length in H1. lia.
  - eapply symbols_len; eauto.
  - apply dynamic_len in H0. apply symbols_len in H1. lia.
Qed.

Lemma inflates_len : forall W h s h2 s2, inflates true W h s h2 s2 -> length s2 <= length s.
Proof.
  intros W h s h2 s2 H. induction H; subst.
  - apply field_len in H0. apply block_len in H1. pose proof (align_len s2). cbn [length]. lia.
  - apply field_len in H0. apply block_len in H1. cbn [length]. lia.
Qed.

Lemma fin_len : forall W e h s h2 s2, fin true W e h s h2 s2 -> length s2 <= length s.
Proof. intros W e h s h2 s2 H. destruct e; [destruct H as [_ ->]; apply align_len|eapply inflates_len; eauto]. Qed.

(** * The body of a block *)
Lemma stored_run_spec : forall W s h, 257 <= W -> base W s h -> r_cnt (f_rd s) = 0 ->
  exists s' e h', stored_run s = Fine (s', e) /\ base W s' h' /\ r_cnt (f_rd s') = 0
  /\ same_frame s s' /\ length (rbits (f_rd s')) <= length (rbits (f_rd s))
  /\ (forall b t hend send,
       (exists data x1, bytes data /\ length data = f_stored s' /\ rbits (f_rd s') ++ t = stream data ++ x1
          /\ fin b W (f_eof s) (h' ++ data) x1 hend send) <->
       (exists data x1, bytes data /\ length data = f_stored s /\ rbits (f_rd s) ++ t = stream data ++ x1
          /\ fin b W (f_eof s) (h ++ data) x1 hend send))
  /\ (if e then f_stored s' = 0 else rbits (f_rd s') = []).
Proof.
  intros W s h HW (R22 & RW & FX & AF) HC. unfold stored_run.
  destruct (r_rest (f_rd s)) as [|c rest0] eqn:ER.
  - exists s, false, h. split; auto. split; [split; auto|]. split; auto. split; [repeat split|]. split; auto.
    split; [tauto|]. unfold rbits. rewrite HC, ER. reflexivity.
  - rewrite <- ER. remember (r_rest (f_rd s)) as rest eqn:EQ. clear c rest0 ER. cbv zeta.
    remember (Nat.min (f_stored s) (length rest)) as size eqn:ESZ.
    rewrite (output_string_put_all W _ _ (f_win s) h) by (auto; try lia; rewrite firstn_length; lia).
    destruct (put_all_rel W (firstn size rest) (f_win s) h ltac:(lia) RW) as (w & EW & RW'). rewrite EW. cbn [of_res bind].
    do 3 eexists. split; [reflexivity|]. cbn [f_rd f_win f_stored].
    destruct R22 as [(A1 & A2 & A3) A4].
    assert (RB : rbits (f_rd s) = stream rest) by (unfold rbits; rewrite HC, <- EQ; reflexivity).
    assert (RB' : rbits (mkrd (r_buf (f_rd s)) (r_cnt (f_rd s)) (skipn size rest)) = stream (skipn size rest)).
    { unfold rbits. cbn [r_cnt r_buf r_rest]. rewrite HC. reflexivity. }
    rewrite RB'. rewrite RB.
    assert (BR : bytes (firstn size rest) /\ bytes (skipn size rest)).
    { apply bytes_app. rewrite firstn_skipn, EQ. exact A3. }
    split; [|split; [exact HC|split; [repeat split|split; [rewrite !stream_length, skipn_length; lia|split]]]].
    + split; [split; [split; auto|]|]. { split; auto. cbn [r_rest]. tauto. } { auto. } split; [exact RW'|]. split; [exact FX|exact AF].
    + intros b t hend send. split.
      * intros (data & x1 & BD & LD & X & Z). exists (firstn size rest ++ data), x1.
        split; [apply bytes_app; tauto|]. split; [rewrite app_length, firstn_length; lia|].
        split; [rewrite <- (firstn_skipn size rest) at 1; rewrite !stream_app, <- !app_assoc, X; reflexivity|].
        rewrite app_assoc. exact Z.
      * intros (data & x1 & BD & LD & X & Z).
        rewrite <- (firstn_skipn size rest), <- (firstn_skipn size data), !stream_app, <- !app_assoc in X.
        apply app_eq_len in X as [X1 X2]; [|rewrite !stream_length, !firstn_length; lia].
        assert (BD' : bytes (firstn size data) /\ bytes (skipn size data)) by (apply bytes_app; rewrite firstn_skipn; auto).
        apply stream_inj in X1; try tauto.
        exists (skipn size data), x1. split; [tauto|]. split; [rewrite skipn_length; lia|]. split; auto.
        rewrite X1, <- app_assoc, firstn_skipn. exact Z.
    + destruct (Nat.eqb_spec (f_stored s - size) 0); auto. rewrite skipn_all2 by lia. reflexivity.
Qed.

Definition post_ok (s : inflator) (h : list Z) : Prop :=
  rok22 (f_rd s) /\ r_cnt (f_rd s) = 0 /\ wsent (f_win s) = h /\ f_after s = [].

Lemma decode_body_spec : forall W lits dists s h, 257 <= W -> body_ok W lits dists s h ->
  match decode_body s with
  | Fine (s', false) => exists h', body_ok W lits dists s' h' /\ length (rbits (f_rd s')) <= length (rbits (f_rd s))
      /\ (forall t hend send, body_accepts false W lits dists s' h' (rbits (f_rd s') ++ t) hend send ->
                              body_accepts false W lits dists s h (rbits (f_rd s) ++ t) hend send)
      /\ (forall t hend send, body_accepts true W lits dists s h (rbits (f_rd s) ++ t) hend send ->
                              body_accepts true W lits dists s' h' (rbits (f_rd s') ++ t) hend send)
      /\ (forall hend send, body_accepts true W lits dists s' h' (rbits (f_rd s')) hend send -> send = [])
  | Fine (s', true) => exists h', length (rbits (f_rd s')) <= length (rbits (f_rd s))
      /\ if f_eof s
         then f_state s' = POST_STREAM /\ post_ok s' h'
              /\ (forall t, whole t -> body_accepts false W lits dists s h (rbits (f_rd s) ++ t) h' (rbits (f_rd s') ++ t))
              /\ (forall t hend send, whole t -> body_accepts true W lits dists s h (rbits (f_rd s) ++ t) hend send ->
                    hend = h' /\ send = rbits (f_rd s') ++ t)
         else f_state s' = WAIT_HEADER /\ base W s' h'
              /\ (forall t hend send, inflates false W h' (rbits (f_rd s') ++ t) hend send ->
                    body_accepts false W lits dists s h (rbits (f_rd s) ++ t) hend send)
              /\ (forall t hend send, body_accepts true W lits dists s h (rbits (f_rd s) ++ t) hend send ->
                    inflates true W h' (rbits (f_rd s') ++ t) hend send)
  | BadBlock => forall t hend send, ~ body_accepts true W lits dists s h (rbits (f_rd s) ++ t) hend send
  | _ => False
  end.
Proof.
  intros W lits dists s h HW (ST & AF & HB). unfold decode_body, body_accepts, body_ok.
  destruct (Nat.eqb_spec (f_type s) 0) as [T0|T0].
  - destruct HB as [HB HC]. destruct (stored_run_spec W s h HW HB HC) as (s1 & e & h1 & E & B1 & C1 & FR & L1 & IFF & X).
    rewrite E. cbn [bind]. destruct FR as (F1 & F2 & F3 & F4). destruct e; cbn [negb].
    + rewrite F2. destruct (f_eof s) eqn:EO.
      * destruct B1 as (R1 & W1 & X1 & A1).
        destruct (unget_spec (f_rd s1) (proj1 R1)) as (U1 & U2 & U3).
        destruct (flush_rel W (f_win s1) h1 ltac:(lia) W1) as [G1 G2].
        exists h1. cbn [set_state set_rd set_win f_rd f_state f_win f_after]. rewrite U3.
        split; [pose proof (align_len (rbits (f_rd s1))); lia|]. split; auto.
        split; [split; [exact U1|]; split; [exact U2|]; split; [exact G2|exact A1]|]. split.
        { intros t Ht. apply IFF. exists [], (rbits (f_rd s1) ++ t). split; [constructor|]. split; [auto|]. split; auto.
          split; [rewrite app_nil_r; auto|rewrite align_app; auto]. }
        { intros t hend send Ht H. apply IFF in H. destruct H as (data & x1 & BD & LD & Y & Z).
          rewrite X in LD. destruct data; [|discriminate]. cbn [stream flat_map app] in Y. destruct Z as [Z1 Z2].
          rewrite app_nil_r in Z1. split; auto. rewrite Z2, <- Y, align_app by auto. reflexivity. }
      * exists h1. cbn [set_state f_rd f_state]. split; auto. split; auto. split; [exact B1|]. split.
        { intros t hend send H. apply IFF. exists [], (rbits (f_rd s1) ++ t). split; [constructor|]. split; auto. split; auto.
          rewrite app_nil_r. exact H. }
        { intros t hend send H. apply IFF in H. destruct H as (data & x1 & BD & LD & Y & Z).
          rewrite X in LD. destruct data; [|discriminate]. cbn [stream flat_map app] in Y.
          rewrite app_nil_r in Z. rewrite Y. exact Z. }
    + exists h1. rewrite F3, F2, T0. cbn [Nat.eqb]. split; [split; [congruence|]; split; [destruct B1 as (? & ? & ? & ?); auto|auto]|].
      split; auto. split; [intros t hend send; apply IFF|]. split; [intros t hend send; apply IFF|].
      intros hend send (data & x1 & BD & LD & Y & Z). rewrite X in Y. symmetry in Y. apply app_eq_nil in Y as [Y1 Y2].
      apply fin_len in Z. rewrite Y2 in Z. cbn in Z. destruct send; auto. cbn in Z. lia.
  - assert (MS : measure s < 4 * bits_left (f_rd s) + 4).
    { unfold measure. rewrite rbits_length. destruct (f_next s); cbn [rank]; lia. }
    pose proof (body_run_spec W lits dists HW _ s h HB MS) as BR.
    destruct (body_run _ s) as [[s1 e]| | |]; try contradiction; cbn [bind].
    2:{ intros t hend send (h2 & x2 & H & _). exact (BR _ _ _ H). }
    destruct BR as (h1 & B1 & (F1 & F2 & F3 & F4) & L1 & BR). destruct e; cbn [negb].
    + destruct BR as [X1 X2]. rewrite F2. destruct (f_eof s) eqn:EO.
      * destruct (unget_spec (f_rd s1) (proj1 (b_rd _ _ _ _ _ B1))) as (U1 & U2 & U3).
        destruct (flush_rel W (f_win s1) h1 ltac:(lia) (b_win _ _ _ _ _ B1)) as [G1 G2].
        exists h1. cbn [set_state set_rd set_win f_rd f_state f_win f_after]. rewrite U3.
        split; [pose proof (align_len (rbits (f_rd s1))); lia|]. split; auto.
        split; [split; [exact U1|]; split; [exact U2|]; split; [exact G2|cbn; congruence]|]. split.
        { intros t Ht. exists h1, (rbits (f_rd s1) ++ t). split; auto. split; auto. rewrite align_app; auto. }
        { intros t hend send Ht (h2 & x2 & H & Z1 & Z2). destruct (X2 _ _ _ H) as [-> ->]. rewrite align_app in Z2 by auto. auto. }
      * exists h1. cbn [set_state f_rd f_state]. split; auto. split; auto. split.
        { split; [apply (b_rd _ _ _ _ _ B1)|]. split; [apply (b_win _ _ _ _ _ B1)|]. split; [apply (b_fix _ _ _ _ _ B1)|cbn; congruence]. }
        split.
        { intros t hend send H. exists h1, (rbits (f_rd s1) ++ t). auto. }
        { intros t hend send (h2 & x2 & H & Z). destruct (X2 _ _ _ H) as [-> ->]. exact Z. }
    + destruct BR as (X1 & X2 & X3). exists h1. rewrite F3, F2. destruct (Nat.eqb_spec (f_type s) 0); [contradiction|].
      split; [split; [congruence|]; split; [congruence|auto]|]. split; auto. split.
      { intros t hend send (h2 & x2 & H & Z). exists h2, x2. auto. }
      split.
      { intros t hend send (h2 & x2 & H & Z). exists h2, x2. auto. }
      { intros hend send (h2 & x2 & H & Z). destruct (X3 _ _ H). }
Qed.

(** * The state machine *)
Definition inv (W : nat) (lits dists : list nat) (s : inflator) (h : list Z) : Prop :=
  match f_state s with
  | PRE_STREAM => h = [] /\ rok22 (f_rd s) /\ fixed_ok s /\ f_after s = [] /\ wsent (f_win s) = []
  | WAIT_HEADER => base W s h
  | DECODING_BODY => body_ok W lits dists s h
  | POST_STREAM => post_ok s h
  | AFTER_END => rok22 (f_rd s) /\ r_cnt (f_rd s) = 0 /\ wsent (f_win s) = h /\ bytes (f_after s)
  end.

Definition accepts (b : bool) (W : nat) (lits dists : list nat) (s : inflator) (h : list Z) (x : list bool)
  (hend : list Z) (send : list bool) : Prop :=
  match f_state s with
  | PRE_STREAM | WAIT_HEADER => inflates b W h x hend send
  | DECODING_BODY => body_accepts b W lits dists s h x hend send
  | POST_STREAM | AFTER_END => hend = h /\ send = stream (f_after s) ++ x
  end.

Definition pmeasure (s : inflator) : nat :=
  match f_state s with
  | PRE_STREAM => 2 * length (rbits (f_rd s)) + 5
  | WAIT_HEADER => 2 * length (rbits (f_rd s)) + 4
  | DECODING_BODY => 2 * length (rbits (f_rd s)) + 5
  | POST_STREAM => 3
  | AFTER_END => 1
  end.

Lemma process_spec : forall W init flush, 257 <= W -> length init = W ->
  forall fuel lits dists s h, inv W lits dists s h -> pmeasure s < fuel ->
  match process_input fuel init flush s with
  | Fine s' => exists lits' dists' h', inv W lits' dists' s' h' /\ f_state s' <> PRE_STREAM
      /\ (forall t hend send, whole t -> accepts false W lits' dists' s' h' (rbits (f_rd s') ++ t) hend send ->
            accepts false W lits dists s h (rbits (f_rd s) ++ t) hend send)
      /\ (forall t hend send, whole t -> accepts true W lits dists s h (rbits (f_rd s) ++ t) hend send ->
            accepts true W lits' dists' s' h' (rbits (f_rd s') ++ t) hend send)
      /\ (f_state s' = AFTER_END -> r_rest (f_rd s') = [])
      /\ (flush = true -> f_state s' <> AFTER_END -> forall hend send,
            accepts true W lits' dists' s' h' (rbits (f_rd s')) hend send -> length send < 24)
  | _ => forall t hend send, whole t -> flush = false \/ t = [] ->
           ~ accepts true W lits dists s h (rbits (f_rd s) ++ t) hend send
  end.
Proof.
  intros W init flush HW HI. induction fuel as [|fuel IH]; intros lits dists s h HV HM; [lia|].
  cbn [process_input]. unfold inv in HV. unfold pmeasure in HM. destruct (f_state s) eqn:ES.
  - (* PRE_STREAM *)
    destruct HV as (-> & R & FX & AF & WS).
    match goal with |- context [process_input fuel init flush ?x] => remember x as s1 eqn:E1 end.
    assert (V1 : inv W lits dists s1 []).
    { unfold inv. rewrite E1. cbn [set_win set_state f_state]. split; [exact R|]. split; [|split; [exact FX|exact AF]].
      cbn [f_win]. rewrite WS. rewrite <- HI. apply rel_new. lia. }
    assert (S1 : f_state s1 = WAIT_HEADER) by (subst; reflexivity).
    assert (RD : f_rd s1 = f_rd s) by (subst; reflexivity).
    specialize (IH lits dists s1 [] V1 ltac:(unfold pmeasure; rewrite S1, RD; lia)).
    unfold accepts in IH |- *. rewrite S1, RD in IH. rewrite ES. exact IH.
  - (* WAIT_HEADER *)
    destruct (Nat.ltb_spec (length (r_rest (f_rd s))) (if flush then 1 else max_header_size)) as [L|G].
    + exists lits, dists, h. split; [unfold inv; rewrite ES; exact HV|]. split; [congruence|]. split; auto. split; auto.
      split; [congruence|]. intros -> _ hend send H. unfold accepts in H. rewrite ES in H. apply inflates_len in H.
      rewrite rbits_length in H. unfold bits_left in H. destruct HV as ([_ C22] & _). lia.
    + pose proof (decode_header_spec W s h flush HW HV) as DH.
      assert (Q1 : 1 <= length (r_rest (f_rd s))) by (change max_header_size with 591 in G; destruct flush; lia).
      specialize (DH Q1 ltac:(intros E; rewrite E in G; exact G)).
      unfold accepts. rewrite ES.
      destruct (decode_header s) as [s1| | |]; cbn [bind]; auto.
      destruct DH as (lits1 & dists1 & B1 & L1 & X1 & X2).
      assert (S1 : f_state s1 = DECODING_BODY) by apply B1.
      assert (V1 : inv W lits1 dists1 s1 h) by (unfold inv; rewrite S1; exact B1).
      specialize (IH lits1 dists1 s1 h V1 ltac:(unfold pmeasure; rewrite S1; lia)).
      assert (A1 : forall b x hend send, accepts b W lits1 dists1 s1 h x hend send = body_accepts b W lits1 dists1 s1 h x hend send).
      { intros. unfold accepts. rewrite S1. reflexivity. }
      destruct (process_input fuel init flush s1) as [s2| | |].
      * destruct IH as (lits2 & dists2 & h2 & V2 & N2 & Y1 & Y2 & Y3 & Y4). exists lits2, dists2, h2.
        split; auto. split; auto. split; [|split; [|split; auto]].
        { intros t hend send Ht H. apply X1; auto. rewrite <- A1. apply Y1; auto. }
        { intros t hend send Ht H. apply Y2; auto. rewrite A1. apply X2; auto. }
      * intros t hend send Ht TT H. apply (IH t hend send Ht TT). rewrite A1. auto.
      * intros t hend send Ht TT H. apply (IH t hend send Ht TT). rewrite A1. auto.
      * intros t hend send Ht TT H. apply (IH t hend send Ht TT). rewrite A1. auto.
  - (* DECODING_BODY *)
    pose proof (decode_body_spec W lits dists s h HW HV) as DB.
    assert (A0 : forall b x hend send, accepts b W lits dists s h x hend send = body_accepts b W lits dists s h x hend send).
    { intros. unfold accepts. rewrite ES. reflexivity. }
    destruct (decode_body s) as [[s1 e]| | |]; cbn [bind]; try contradiction.
    2:{ intros t hend send Ht TT H. rewrite A0 in H. exact (DB t hend send H). }
    destruct e.
    + destruct DB as (h1 & L1 & DB). destruct (f_eof s).
      * destruct DB as (S1 & P1 & X1 & X2).
        assert (V1 : inv W lits dists s1 h1) by (unfold inv; rewrite S1; exact P1).
        specialize (IH lits dists s1 h1 V1 ltac:(unfold pmeasure; rewrite S1; lia)).
        assert (A1 : forall b x hend send, accepts b W lits dists s1 h1 x hend send <-> hend = h1 /\ send = x).
        { intros. unfold accepts. rewrite S1. destruct P1 as (_ & _ & _ & P1). rewrite P1. reflexivity. }
        destruct (process_input fuel init flush s1) as [s2| | |].
        { destruct IH as (lits2 & dists2 & h2 & V2 & N2 & Y1 & Y2 & Y3 & Y4). exists lits2, dists2, h2.
          split; auto. split; auto. split; [|split; [|split; auto]].
          - intros t hend send Ht H. rewrite A0. apply Y1 in H; auto. apply A1 in H as [-> ->]. apply X1. auto.
          - intros t hend send Ht H. apply Y2; auto. apply A1. rewrite A0 in H. apply X2; auto. }
        all: intros t hend send Ht TT H; apply (IH t hend send Ht TT); apply A1; rewrite A0 in H; apply X2; auto.
      * destruct DB as (S1 & P1 & X1 & X2).
        assert (V1 : inv W lits dists s1 h1) by (unfold inv; rewrite S1; exact P1).
        specialize (IH lits dists s1 h1 V1 ltac:(unfold pmeasure; rewrite S1; lia)).
        assert (A1 : forall b x hend send, accepts b W lits dists s1 h1 x hend send = inflates b W h1 x hend send).
        { intros. unfold accepts. rewrite S1. reflexivity. }
        destruct (process_input fuel init flush s1) as [s2| | |].
        { destruct IH as (lits2 & dists2 & h2 & V2 & N2 & Y1 & Y2 & Y3 & Y4). exists lits2, dists2, h2.
          split; auto. split; auto. split; [|split; [|split; auto]].
          - intros t hend send Ht H. rewrite A0. apply X1. rewrite <- A1. apply Y1; auto.
          - intros t hend send Ht H. apply Y2; auto. rewrite A1. rewrite A0 in H. apply X2; auto. }
        all: intros t hend send Ht TT H; apply (IH t hend send Ht TT); rewrite A1; rewrite A0 in H; apply X2; auto.
    + destruct DB as (h1 & B1 & L1 & X1 & X2 & X3).
      assert (S1 : f_state s1 = DECODING_BODY) by apply B1.
      assert (A1 : forall b x hend send, accepts b W lits dists s1 h1 x hend send = body_accepts b W lits dists s1 h1 x hend send).
      { intros. unfold accepts. rewrite S1. reflexivity. }
      exists lits, dists, h1. split; [unfold inv; rewrite S1; exact B1|]. split; [congruence|].
      split; [intros t hend send Ht; rewrite A0, A1; apply X1|]. split; [intros t hend send Ht; rewrite A0, A1; apply X2|].
      split; [congruence|]. intros _ _ hend send H. rewrite A1 in H. rewrite (X3 _ _ H). cbn [length]. lia.
  - (* POST_STREAM *)
    destruct HV as (R & C & WS & AF). cbv zeta.
    assert (V1 : inv W lits dists (set_state s AFTER_END) h).
    { unfold inv. cbn [set_state f_state f_rd f_win f_after]. rewrite AF. repeat split; auto; try apply R. constructor. }
    assert (A1 : forall b x hend send, accepts b W lits dists (set_state s AFTER_END) h x hend send = accepts b W lits dists s h x hend send).
    { intros. unfold accepts. cbn [set_state f_state f_after]. rewrite ES. reflexivity. }
    cbn [set_state f_rd]. destruct (r_rest (f_rd s)) as [|c rest] eqn:ER.
    + exists lits, dists, h. split; [exact V1|]. split; [discriminate|]. cbn [set_state f_rd].
      split; [intros t hend send Ht H; rewrite <- A1; exact H|]. split; [intros t hend send Ht H; rewrite <- A1 in H; exact H|].
      split; [auto|]. intros _ N. destruct N. reflexivity.
    + specialize (IH lits dists (set_state s AFTER_END) h V1 ltac:(unfold pmeasure; cbn [set_state f_state]; lia)).
      cbn [set_state f_rd] in IH. fold (set_state s AFTER_END) in *.
      destruct (process_input fuel init flush (set_state s AFTER_END)) as [s2| | |].
      * destruct IH as (lits2 & dists2 & h2 & V2 & N2 & Y1 & Y2 & Y3). exists lits2, dists2, h2. split; auto. split; auto.
        split; [intros t hend send Ht H; rewrite <- A1; apply Y1; auto|].
        split; [intros t hend send Ht H; apply Y2; auto; rewrite A1; auto|exact Y3].
      * intros t hend send Ht TT H. apply (IH t hend send Ht TT). rewrite A1. auto.
      * intros t hend send Ht TT H. apply (IH t hend send Ht TT). rewrite A1. auto.
      * intros t hend send Ht TT H. apply (IH t hend send Ht TT). rewrite A1. auto.
  - (* AFTER_END *)
    destruct HV as (R & C & WS & AF). destruct R as [(R1 & R2 & R3) R4].
    assert (RB : rbits (f_rd s) = stream (r_rest (f_rd s))) by (unfold rbits; rewrite C; reflexivity).
    exists lits, dists, h. unfold inv, accepts. cbn [f_state f_rd f_win f_after r_cnt r_rest r_buf]. rewrite ES.
    assert (RB' : rbits (mkrd (r_buf (f_rd s)) (r_cnt (f_rd s)) []) = []) by (unfold rbits; cbn [r_cnt r_rest]; rewrite C; reflexivity).
    rewrite RB', RB. split.
    { split; [split; [split; auto|]|]. { split; auto. constructor. } { auto. } split; auto. split; auto. apply bytes_app. auto. }
    split; [discriminate|]. rewrite stream_app.
    split; [intros t hend send Ht; cbn [app]; rewrite <- app_assoc; auto|].
    split; [intros t hend send Ht; cbn [app]; rewrite <- app_assoc; auto|].
    split; auto. intros _ N. destruct N. reflexivity.
Qed.

(** * Pieces *)
Definition more (s : inflator) (piece : list Z) : inflator :=
  set_rd s (mkrd (r_buf (f_rd s)) (r_cnt (f_rd s)) (r_rest (f_rd s) ++ piece)).

Lemma more_rbits : forall s piece, rbits (f_rd (more s piece)) = rbits (f_rd s) ++ stream piece.
Proof. intros. unfold rbits, more. cbn [set_rd f_rd r_cnt r_buf r_rest]. rewrite stream_app, app_assoc. reflexivity. Qed.

Lemma more_rok22 : forall s piece, bytes piece -> rok22 (f_rd s) -> rok22 (f_rd (more s piece)).
Proof.
  intros s piece HB [(A & B & C) D]. split; auto. split; auto. split; auto. cbn [more set_rd f_rd r_rest]. apply bytes_app. auto.
Qed.

Lemma more_inv : forall W lits dists s h piece, bytes piece -> inv W lits dists s h -> inv W lits dists (more s piece) h.
Proof.
  intros W lits dists s h piece HB HV. unfold inv in *. change (f_state (more s piece)) with (f_state s).
  destruct (f_state s) eqn:ES.
  - destruct HV as (A & B & C). split; auto. split; [apply more_rok22; auto|exact C].
  - destruct HV as (A & B). split; [apply more_rok22; auto|exact B].
  - destruct HV as (A & B & C). split; auto. split; auto. change (f_type (more s piece)) with (f_type s).
    destruct (f_type s =? 0).
    + destruct C as [[C D] E]. split; auto. split; auto. apply more_rok22; auto.
    + apply set_rd_body; auto. apply (more_rok22 s piece HB). apply (b_rd _ _ _ _ _ C).
  - destruct HV as (A & B). split; [apply more_rok22; auto|exact B].
  - destruct HV as (A & B). split; [apply more_rok22; auto|exact B].
Qed.

Lemma pmeasure_bound : forall s, pmeasure s < 2 * bits_left (f_rd s) + 6.
Proof. intros s. unfold pmeasure. rewrite rbits_length. destruct (f_state s); lia. Qed.

Lemma put_pieces_spec : forall W init, 257 <= W -> length init = W -> forall pieces lits dists s h,
  Forall bytes pieces -> inv W lits dists s h ->
  match put_pieces init s pieces with
  | Fine s' => exists lits' dists' h', inv W lits' dists' s' h'
      /\ (forall t hend send, whole t -> accepts false W lits' dists' s' h' (rbits (f_rd s') ++ t) hend send ->
            accepts false W lits dists s h (rbits (f_rd s) ++ stream (concat pieces) ++ t) hend send)
      /\ (forall t hend send, whole t -> accepts true W lits dists s h (rbits (f_rd s) ++ stream (concat pieces) ++ t) hend send ->
            accepts true W lits' dists' s' h' (rbits (f_rd s') ++ t) hend send)
  | _ => forall t hend send, whole t -> ~ accepts true W lits dists s h (rbits (f_rd s) ++ stream (concat pieces) ++ t) hend send
  end.
Proof.
  intros W init HW HI. induction pieces as [|p pieces IH]; intros lits dists s h HP HV; cbn [put_pieces].
  - exists lits, dists, h. cbn [concat stream flat_map app]. auto.
  - pose proof (Forall_inv HP) as HB. cbv beta in HB. pose proof (Forall_inv_tail HP) as HT.
    unfold put2. fold (more s p).
    pose proof (process_spec W init false HW HI _ lits dists (more s p) h (more_inv _ _ _ _ _ _ HB HV) (pmeasure_bound (more s p))) as PS.
    assert (AC : forall b x hend send, accepts b W lits dists (more s p) h x hend send = accepts b W lits dists s h x hend send) by reflexivity.
    rewrite more_rbits in PS.
    assert (EQ : forall t, rbits (f_rd s) ++ stream (concat (p :: pieces)) ++ t = (rbits (f_rd s) ++ stream p) ++ (stream (concat pieces) ++ t)).
    { intros t. cbn [concat]. rewrite stream_app, <- !app_assoc. reflexivity. }
    destruct (process_input _ init false (more s p)) as [s1| | |]; cbn [bind].
    + destruct PS as (lits1 & dists1 & h1 & V1 & _ & X1 & X2 & _).
      specialize (IH lits1 dists1 s1 h1 HT V1). destruct (put_pieces init s1 pieces) as [s2| | |].
      * destruct IH as (lits2 & dists2 & h2 & V2 & Y1 & Y2). exists lits2, dists2, h2. split; auto. split.
        { intros t hend send Ht H. rewrite EQ. rewrite <- AC. apply X1; [apply whole_app; [apply whole_stream|auto]|]. apply Y1; auto. }
        { intros t hend send Ht H. rewrite EQ, <- AC in H. apply Y2; auto. apply X2; auto. apply whole_app; [apply whole_stream|auto]. }
      * intros t hend send Ht H. rewrite EQ, <- AC in H. apply (IH t hend send Ht). apply X2; auto. apply whole_app; [apply whole_stream|auto].
      * intros t hend send Ht H. rewrite EQ, <- AC in H. apply (IH t hend send Ht). apply X2; auto. apply whole_app; [apply whole_stream|auto].
      * intros t hend send Ht H. rewrite EQ, <- AC in H. apply (IH t hend send Ht). apply X2; auto. apply whole_app; [apply whole_stream|auto].
    + intros t hend send Ht H. rewrite EQ, <- AC in H. refine (PS _ hend send _ _ H); [apply whole_app; [apply whole_stream|auto]|auto].
    + intros t hend send Ht H. rewrite EQ, <- AC in H. refine (PS _ hend send _ _ H); [apply whole_app; [apply whole_stream|auto]|auto].
    + intros t hend send Ht H. rewrite EQ, <- AC in H. refine (PS _ hend send _ _ H); [apply whole_app; [apply whole_stream|auto]|auto].
Qed.

Lemma new_inv : forall W, inv W [] [] inflator_new [].
Proof.
  intros W. split; [reflexivity|]. split; [|split; [|split; reflexivity]].
  - split; [|cbn; lia]. split; [cbn; lia|]. split; [cbn; lia|constructor].
  - split; intros d E; discriminate.
Qed.

Lemma whole_nil : whole [].
Proof. reflexivity. Qed.

Lemma inflate_sound : forall init pieces last out, 257 <= length init -> Forall bytes pieces -> bytes last ->
  inflate init pieces last = Fine out ->
  exists data rest, bytes rest /\ out = data ++ rest /\ deflated false (length init) (concat pieces ++ last) data rest.
Proof.
  intros init pieces last out HW HP HL H. unfold inflate in H.
  pose proof (put_pieces_spec (length init) init HW eq_refl pieces [] [] inflator_new [] HP (new_inv _)) as PP.
  destruct (put_pieces init inflator_new pieces) as [s1| | |]; cbn [bind] in H; try discriminate.
  destruct PP as (lits1 & dists1 & h1 & V1 & X1 & _).
  unfold put2 in H. fold (more s1 last) in H.
  pose proof (process_spec (length init) init true HW eq_refl _ lits1 dists1 (more s1 last) h1 (more_inv _ _ _ _ _ _ HL V1) (pmeasure_bound _)) as PS.
  destruct (process_input _ init true (more s1 last)) as [s2| | |]; cbn [bind] in H; try discriminate.
  destruct PS as (lits2 & dists2 & h2 & V2 & N2 & Y1 & _ & Y3 & _).
  destruct (f_state s2) eqn:ES; cbn [bind] in H; try discriminate; [congruence|].
  injection H as <-. unfold inv in V2. rewrite ES in V2. destruct V2 as (R2 & C2 & W2 & A2).
  exists h2, (f_after s2). split; auto. split; [congruence|].
  assert (B2 : rbits (f_rd s2) = []) by (unfold rbits; rewrite C2, (Y3 eq_refl); reflexivity).
  specialize (Y1 [] h2 (stream (f_after s2)) whole_nil). rewrite more_rbits, B2, !app_nil_r in Y1.
  assert (Q : accepts false (length init) lits2 dists2 s2 h2 [] h2 (stream (f_after s2))).
  { unfold accepts. rewrite ES, app_nil_r. auto. }
  specialize (Y1 Q). specialize (X1 (stream last) h2 (stream (f_after s2)) (whole_stream last) Y1).
  unfold deflated. rewrite stream_app. exact X1.
Qed.

Lemma inflate_complete : forall init pieces last data rest, 257 <= length init -> Forall bytes pieces -> bytes last ->
  bytes rest -> 3 <= length rest ->
  deflated true (length init) (concat pieces ++ last) data rest ->
  inflate init pieces last = Fine (data ++ rest).
Proof.
  intros init pieces last data rest HW HP HL HR H3 H. unfold deflated in H. rewrite stream_app in H. unfold inflate.
  pose proof (put_pieces_spec (length init) init HW eq_refl pieces [] [] inflator_new [] HP (new_inv _)) as PP.
  change (inflates true (length init) [] (stream (concat pieces) ++ stream last) data (stream rest))
    with (accepts true (length init) [] [] inflator_new [] (rbits (f_rd inflator_new) ++ stream (concat pieces) ++ stream last) data (stream rest)) in H.
  destruct (put_pieces init inflator_new pieces) as [s1| | |]; cbn [bind].
  2,3,4: destruct (PP _ _ _ (whole_stream last) H).
  destruct PP as (lits1 & dists1 & h1 & V1 & _ & X2). specialize (X2 _ _ _ (whole_stream last) H).
  unfold put2. fold (more s1 last).
  pose proof (process_spec (length init) init true HW eq_refl _ lits1 dists1 (more s1 last) h1 (more_inv _ _ _ _ _ _ HL V1) (pmeasure_bound _)) as PS.
  rewrite more_rbits in PS.
  change (accepts true (length init) lits1 dists1 s1 h1) with (accepts true (length init) lits1 dists1 (more s1 last) h1) in X2.
  rewrite <- (app_nil_r (rbits (f_rd s1) ++ stream last)) in X2.
  destruct (process_input _ init true (more s1 last)) as [s2| | |]; cbn [bind].
  2,3,4: destruct (PS [] _ _ whole_nil (or_intror eq_refl) X2).
  destruct PS as (lits2 & dists2 & h2 & V2 & N2 & _ & Y2 & Y3 & Y4).
  specialize (Y2 [] _ _ whole_nil X2). rewrite app_nil_r in Y2.
  assert (AE : f_state s2 = AFTER_END).
  { destruct (f_state s2) eqn:ES; auto; exfalso; specialize (Y4 eq_refl ltac:(discriminate) _ _ Y2);
    rewrite stream_length in Y4; lia. }
  rewrite AE. cbn [bind]. unfold inv in V2. unfold accepts in Y2. rewrite AE in V2, Y2. destruct V2 as (R2 & C2 & W2 & A2). destruct Y2 as [-> E2].
  assert (B2 : rbits (f_rd s2) = []) by (unfold rbits; rewrite C2, (Y3 AE); reflexivity).
  rewrite B2, app_nil_r in E2. apply stream_inj in E2; auto. subst rest. rewrite W2. reflexivity.
Qed.
