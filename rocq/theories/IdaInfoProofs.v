(** InformationDispersal and InformationRecovery. *)
From Coq Require Import ZArith List Bool Arith Lia.
From Verif Require Import Base Gf32Model Gf32FieldProofs InterpModel InterpSpec InterpGfProofs IdaModel IdaSpec IdaProofs IdaSinkProofs IdaRawProofs IdaShareProofs IdaRecoverProofs.
Import ListNotations.

Lemma every_nth : forall s t c i, (1 <= t)%nat -> nth i (every t c s) 0%Z = nth (c + t * i) s 0%Z.
Proof.
  induction s as [|b s IH]; intros t c i Ht.
  - cbn [every]. rewrite !nth_overflow by (cbn; lia). reflexivity.
  - cbn [every]. destruct c as [|c].
    + destruct i as [|i]; [rewrite Nat.mul_0_r; reflexivity|]. cbn [nth]. rewrite IH by auto. replace (0 + t * S i)%nat with (S (t - 1 + t * i)) by lia. reflexivity.
    + rewrite IH by auto. reflexivity.
Qed.
Lemma every_length : forall s t c i, (1 <= t)%nat -> (i < length (every t c s) <-> c + t * i < length s)%nat.
Proof.
  induction s as [|b s IH]; intros t c i Ht.
  - cbn. lia.
  - cbn [every]. destruct c as [|c].
    + cbn [length]. destruct i as [|i]; [rewrite Nat.mul_0_r; lia|]. specialize (IH t (t - 1)%nat i Ht). replace (0 + t * S i)%nat with (S (t - 1 + t * i)) by lia. lia.
    + rewrite IH by auto. cbn [length]. lia.
Qed.
Lemma every_bytes : forall s t c, bytes s -> bytes (every t c s).
Proof. induction s as [|b s IH]; intros t c H; [constructor|]. apply Forall_cons_iff in H. destruct H. cbn [every]. destruct c; [constructor; auto|]; apply IH; auto. Qed.
Lemma nth_ext0 : forall (a b : list Z), length a = length b -> (forall i, nth i a 0%Z = nth i b 0%Z) -> a = b.
Proof. intros a b L H. apply (nth_ext a b 0%Z 0%Z); auto. Qed.
Lemma concat_rows_length : forall (f : nat -> list Z) t l, (forall i, length (f i) = t) -> length (concat (map f l)) = (length l * t)%nat.
Proof. intros f t. induction l as [|a l IH]; intros H; [reflexivity|]. cbn [map concat length]. rewrite app_length, H, IH by auto. lia. Qed.
Lemma nth_rows : forall (f : nat -> list Z) t n b i, (1 <= t)%nat -> (forall i, length (f i) = t) -> (i < n * t)%nat -> nth i (concat (map f (seq b n))) 0%Z = nth (i mod t) (f (b + i / t)%nat) 0%Z.
Proof.
  intros f t. induction n as [|n IH]; intros b i Ht HL Hi; [lia|]. cbn [seq map concat]. destruct (Nat.ltb_spec i t) as [L|L].
  - rewrite app_nth1 by (rewrite HL; auto). rewrite Nat.mod_small, Nat.div_small by auto. rewrite Nat.add_0_r. reflexivity.
  - rewrite app_nth2 by (rewrite HL; auto). rewrite HL, IH by (auto; lia). replace (i mod t)%nat with ((i - t + 1 * t) mod t)%nat by (f_equal; lia). replace (i / t)%nat with ((i - t + 1 * t) / t)%nat by (f_equal; lia). rewrite Nat.mod_add, Nat.div_add by lia. f_equal. f_equal. lia.
Qed.
(** dealing the words of the streams back *)
Lemma deal_every : forall t K P, (1 <= t)%nat -> bytes P -> (length P <= 4 * K * t)%nat ->
  deal (map Z.of_nat (seq 0 t)) (fun o => word_bytes (word_at (every t (Z.to_nat o) P)) 0 K) (4 * K) = P ++ repeat 0%Z (4 * K * t - length P).
Proof.
  intros t K P Ht HB HL. apply nth_ext0.
  - rewrite deal_length, map_length, seq_length, app_length, repeat_length. lia.
  - intros i. destruct (Nat.ltb_spec i (4 * K * t)) as [Hi|Hi].
    + unfold deal. rewrite (nth_rows _ t) by (auto; intros; rewrite !map_length; apply seq_length). cbn [Nat.add].
      pose proof (Nat.mod_upper_bound i t) as Hm. pose proof (Nat.div_mod_eq i t) as Hd.
      rewrite (nth_indep _ 0%Z (nth (i / t) (word_bytes (word_at (every t (Z.to_nat (Z.of_nat 0)) P)) 0 K) 0%Z)) by (rewrite !map_length, seq_length; lia).
      rewrite (map_nth (fun o => nth (i / t) (word_bytes (word_at (every t (Z.to_nat o) P)) 0 K) 0%Z)), map_nth, seq_nth by lia. cbn [Nat.add]. rewrite Nat2Z.id.
      rewrite word_bytes_words by (apply every_bytes; auto). change (4 * 0)%nat with 0%nat. cbn [skipn].
      assert (Hq : (i / t < 4 * K)%nat) by (apply Nat.div_lt_upper_bound; lia). rewrite nth_firstn_lt by auto.
      assert (A : forall (s : list Z) n j, nth j (s ++ repeat 0%Z n) 0%Z = nth j s 0%Z). { intros s n j. destruct (Nat.ltb_spec j (length s)); [rewrite app_nth1 by auto; reflexivity|]. rewrite app_nth2, nth_repeat, nth_overflow by lia. reflexivity. }
      rewrite !A, every_nth by auto. f_equal. lia.
    + rewrite !nth_overflow; [reflexivity| |]; rewrite ?deal_length, ?map_length, ?seq_length, ?app_length, ?repeat_length; lia.
Qed.

Section Dispersal.
  Variables (cut : list Z -> list (list Z)) (t : nat) (outs : list Z).
  Hypotheses (Ht : (1 <= t)%nat) (Htw : (Z.of_nat t <= 2 ^ 32)%Z).
  Let chan : list Z := map Z.of_nat (seq 0 t).
  Let E0 : Z -> bool := fun _ => false.
  Let next (d : nat) : nat := if Nat.eqb (S d) t then 0%nat else S d.
  Fixpoint dcalls (d : nat) (msg : list Z) : list (Z * list Z * bool) :=
    match msg with [] => [] | b :: r => (Z.of_nat d, [b], false) :: dcalls (next d) r end.
  Definition as_dis (pad : bool) (n : nat) (r : option (ida * list ida_ev)) : option (disperse * list ida_ev) := match r with None => None | Some (a, e) => Some (Disperse a pad n, e) end.
  Fixpoint dnext (d : nat) (msg : list Z) : nat := match msg with [] => d | _ :: r => dnext (next d) r end.
  Lemma next_lt : forall d, (d < t)%nat -> (next d < t)%nat. Proof. intros d H. unfold next. destruct (Nat.eqb_spec (S d) t); lia. Qed.
  Lemma dnext_lt : forall msg d, (d < t)%nat -> (dnext d msg < t)%nat. Proof. induction msg; intros d H; cbn [dnext]; auto using next_lt. Qed.
  Lemma dnext_mod : forall msg d, (d < t)%nat -> dnext d msg = ((d + length msg) mod t)%nat.
  Proof.
    induction msg as [|b msg IH]; intros d H; cbn [dnext length]. { rewrite Nat.add_0_r, Nat.mod_small; auto. }
    rewrite IH by (apply next_lt; auto). unfold next. destruct (Nat.eqb_spec (S d) t) as [E|E]; [|f_equal; lia]. replace (d + S (length msg))%nat with (length msg + 1 * t)%nat by lia. rewrite Nat.mod_add by lia. reflexivity.
  Qed.
  Lemma dcalls_app : forall a d b, dcalls d (a ++ b) = dcalls d a ++ dcalls (dnext d a) b. Proof. induction a as [|x a IH]; intros d b; [reflexivity|]. cbn [app dcalls dnext]. rewrite IH. reflexivity. Qed.
  Lemma dnext_app : forall a d b, dnext d (a ++ b) = dnext (dnext d a) b. Proof. induction a as [|x a IH]; intros d b; [reflexivity|]. cbn [app dnext]. apply IH. Qed.
  Lemma dcalls_open : forall msg d, (d < t)%nat -> Forall (open_call chan) (dcalls d msg).
  Proof. induction msg as [|b msg IH]; intros d H; [constructor|]. cbn [dcalls]. constructor; [|apply IH, next_lt; auto]. split; [|reflexivity]. cbn [fst]. apply in_map, in_seq. lia. Qed.
  Lemma stream_dcalls : forall msg d c, (d < t)%nat -> (c < t)%nat -> stream (Z.of_nat c) (dcalls d msg) = every t (if Nat.leb d c then c - d else c + t - d) msg.
  Proof.
    induction msg as [|b msg IH]; intros d c Hd Hc; [reflexivity|]. cbn [dcalls stream]. rewrite IH by (auto; apply next_lt; auto). unfold next. destruct (Z.eqb_spec (Z.of_nat c) (Z.of_nat d)) as [E|E].
    - assert (c = d) by lia. subst c. rewrite (proj2 (Nat.leb_le d d)), Nat.sub_diag by lia. cbn [every app]. f_equal. destruct (Nat.eqb_spec (S d) t); [cbn [Nat.leb]; f_equal; lia|]. destruct (Nat.leb_spec (S d) d); [lia|]. f_equal. lia.
    - cbn [app]. destruct (Nat.leb_spec d c).
      + destruct (c - d)%nat as [|m] eqn:M; [lia|]. cbn [every]. f_equal. destruct (Nat.eqb_spec (S d) t); [lia|]. destruct (Nat.leb_spec (S d) c); lia.
      + destruct (c + t - d)%nat as [|m] eqn:M; [lia|]. cbn [every]. f_equal. destruct (Nat.eqb_spec (S d) t); [cbn [Nat.leb]; lia|]. destruct (Nat.leb_spec (S d) c); lia.
  Qed.
  Lemma disperse_put_run : forall msg d, ia_thr (di_ida d) = t -> disperse_put cut d msg = as_dis (di_pad d) (dnext (di_next d) msg) (ida_run cut KRaw (di_ida d) (dcalls (di_next d) msg)).
  Proof.
    induction msg as [|b msg IH]; intros d Hth; [destruct d; reflexivity|]. cbn [disperse_put dcalls ida_run dnext]. destruct (ida_data cut KRaw (di_ida d) (Z.of_nat (di_next d)) [b] false) as [[a1 e1]|] eqn:D; [|reflexivity].
    pose proof (data_thr _ _ _ _ _ _ _ _ D) as T1. rewrite Hth in T1. rewrite T1. rewrite IH by exact T1. cbn [di_ida di_pad di_next]. fold (next (di_next d)). destruct (ida_run cut KRaw a1 (dcalls (next (di_next d)) msg)) as [[a2 e2]|]; reflexivity.
  Qed.
  Lemma chan_length : length chan = t. Proof. unfold chan. rewrite map_length. apply seq_length. Qed.
  Lemma disperse_puts_run : forall ps d ids k prop R, Inv t outs prop chan R E0 ids k (di_ida d) -> (di_next d < t)%nat ->
    exists a e ids' k', ida_run cut KRaw (di_ida d) (dcalls (di_next d) (concat ps)) = Some (a, e) /\ Inv t outs prop chan (fun c => R c ++ stream c (dcalls (di_next d) (concat ps))) E0 ids' k' a /\
      disperse_run cut d (map (fun p => (p, 0%Z)) ps) = Some (Disperse a (di_pad d) (dnext (di_next d) (concat ps)), e).
  Proof.
    induction ps as [|p ps IH]; intros d ids k prop R HI Hd.
    - exists (di_ida d), [], ids, k. split; [reflexivity|]. split; [|destruct d; reflexivity]. apply (inv_ext _ _ _ _ _ _ _ _ _ _ _ HI); [|reflexivity]. intros c. cbn. rewrite app_nil_r. reflexivity.
    - cbn [map disperse_run concat]. unfold disperse_put2. rewrite disperse_put_run by apply (i_thr _ _ _ _ _ _ _ _ _ HI).
      destruct (run_inv cut KRaw t outs prop chan Ht chan_length (dcalls (di_next d) p) R ids k _ HI (dcalls_open p _ Hd)) as (k1 & ids1 & a1 & e1 & gs1 & Q1 & Q2 & _). rewrite Q1. cbn [as_dis Z.eqb].
      destruct (IH (Disperse a1 (di_pad d) (dnext (di_next d) p)) _ _ prop _ Q2 (dnext_lt p _ Hd)) as (a2 & e2 & ids2 & k2 & P1 & P2 & P3). cbn [di_ida di_pad di_next] in *. rewrite P3.
      exists a2, (e1 ++ e2), ids2, k2. split; [rewrite dcalls_app, ida_run_app, Q1, P1; reflexivity|]. split; [|rewrite dnext_app; reflexivity].
      apply (inv_ext _ _ _ _ _ _ _ _ _ _ _ P2); [|reflexivity]. intros c. rewrite dcalls_app, stream_app, app_assoc. reflexivity.
  Qed.
  Lemma disperse_run_app : forall l s m, disperse_run cut s (l ++ m) = match disperse_run cut s l with None => None | Some (s1, e1) => match disperse_run cut s1 m with None => None | Some (s2, e2) => Some (s2, e1 ++ e2) end end.
  Proof.
    induction l as [|[p e] l IH]; intros s m; cbn [app disperse_run].
    - destruct (disperse_run cut s m) as [[s2 e2]|]; reflexivity.
    - destruct (disperse_put2 cut s p e) as [[s1 e1]|]; [|reflexivity]. rewrite IH. destruct (disperse_run cut s1 l) as [[s2 e2]|]; [|reflexivity]. destruct (disperse_run cut s2 m) as [[s3 e3]|]; [|reflexivity]. rewrite app_assoc. reflexivity.
  Qed.
  Hypotheses (NDo : NoDup outs) (Wo : Forall is_word outs).
  (** the words each channel gets: enough for byte 0, t, 2t, ... of the marked message *)
  Definition info_words (P : list Z) : nat := words_for (length (every t 0 P)).
  Lemma info_words_ge : forall P, (length P <= 4 * info_words P * t)%nat.
  Proof.
    intros P. unfold info_words. destruct (proj1 (words_for_spec _ _) (eq_refl (words_for (length (every t 0 P))))) as [Q _]. set (K := words_for _) in *.
    destruct (Nat.ltb_spec (4 * K * t) (length P)) as [L|L]; [|exact L]. assert (4 * K < length (every t 0 P))%nat by (apply every_length; [auto|lia]). lia.
  Qed.
  Lemma info_words_lt : forall P, (4 * info_words P * t < length P + 4 * t)%nat.
  Proof.
    intros P. unfold info_words. destruct (proj1 (words_for_spec _ _) (eq_refl (words_for (length (every t 0 P))))) as [_ [Q|Q]]; set (K := words_for _) in *; [rewrite Q; lia|].
    assert (H : (4 * (K - 1) < length (every t 0 P))%nat) by lia. apply (proj1 (every_length P t 0 _ Ht)) in H. destruct K as [|k]; nia.
  Qed.
  Lemma every_shorter : forall P c, (length (every t c P) <= length (every t 0 P))%nat.
  Proof. intros P c. destruct (Nat.ltb_spec (length (every t 0 P)) (length (every t c P))) as [L|L]; [|exact L]. apply (proj1 (every_length P t c _ Ht)) in L. assert (length (every t 0 P) < length (every t 0 P))%nat by (apply every_length; [auto|lia]). lia. Qed.

  Theorem disperse_message : forall qu prop pad ps p me, bytes (concat ps ++ p) -> me <> 0%Z ->
    let msg := concat ps ++ p in
    exists evs pol, disperse_run cut (Disperse (Ida t [] 0 0 outs (repeat [] (length outs)) qu prop) pad 0) (map (fun p => (p, 0%Z)) ps ++ [(p, me)]) =
        Some (Disperse (Ida t [] 0 0 outs (repeat [] (length outs)) qu (me - 1)) pad (length (marked pad msg) mod t), evs) /\
      (forall j, (length (pol j) <= t)%nat /\ Forall is_word (pol j) /\ forall c, (c < t)%nat -> gf_eval (pol j) (Z.of_nat c) = word_at (every t c (marked pad msg)) j) /\
      (forall o, In o outs -> sent (Some o) evs = word_bytes (fun j => gf_eval (pol j) o) 0 (info_words (marked pad msg)) /\ ended (Some o) evs = if (me - 1 =? 0)%Z then 0%nat else 1%nat) /\
      (forall o, ~ In o outs -> sent (Some o) evs = [] /\ ended (Some o) evs = 0%nat) /\ sent None evs = [] /\ ended None evs = 0%nat.
  Proof.
    intros qu prop pad ps p me HB Hme msg. set (a0 := Ida t [] 0 0 outs (repeat [] (length outs)) qu prop).
    pose proof chan_length as HLc. pose proof (numbers_nodup t) as NDc. fold chan in NDc. pose proof (numbers_word t Htw) as Wc. fold chan in Wc.
    pose proof (inv_start t outs prop chan Ht HLc (repeat [] (length outs)) qu) as I0. fold a0 in I0.
    destruct (disperse_puts_run ps (Disperse a0 pad 0) [] 0%nat prop (fun _ => []) I0 Ht) as (a1 & e1 & ids1 & k1 & R1 & I1 & E1). cbn [di_ida di_pad di_next] in *.
    rewrite disperse_run_app, E1. cbn [disperse_run]. unfold disperse_put2. rewrite disperse_put_run by apply (i_thr _ _ _ _ _ _ _ _ _ I1). cbn [di_ida di_pad di_next].
    destruct (run_inv cut KRaw t outs prop chan Ht HLc (dcalls (dnext 0 (concat ps)) p) _ ids1 k1 a1 I1 (dcalls_open p _ (dnext_lt _ _ Ht))) as (k2 & ids2 & a2 & e2 & gs2 & R2 & I2 & _). rewrite R2. cbn [as_dis di_ida di_pad di_next].
    destruct (Z.eqb_spec me 0); [contradiction|]. clear n. rewrite <- dnext_app. fold msg.
    pose proof (inv_prop _ _ _ _ _ _ _ _ _ (me - 1)%Z I2) as I2'.
    set (mk := if pad then [1%Z] else []). set (c3 := dcalls (dnext 0 msg) mk).
    assert (O3 : Forall (open_call chan) c3) by (apply dcalls_open, dnext_lt, Ht).
    destruct (run_inv cut KRaw t outs (me - 1) chan Ht HLc c3 _ _ _ _ I2' O3) as (k3 & ids3 & a3 & e3 & gs3 & R3 & I3 & _).
    assert (PM : marked pad msg = msg ++ mk) by (unfold marked, mk; destruct pad; [reflexivity|rewrite app_nil_r; reflexivity]).
    assert (E3 : (if pad then disperse_put cut (Disperse (ida_set_prop a2 (me - 1)) pad (dnext 0 msg)) [1%Z] else Some (Disperse (ida_set_prop a2 (me - 1)) pad (dnext 0 msg), [])) = Some (Disperse a3 pad (dnext 0 (marked pad msg)), e3)).
    { rewrite PM, dnext_app. unfold c3 in R3. unfold mk in *. destruct pad.
      - rewrite disperse_put_run by apply (i_thr _ _ _ _ _ _ _ _ _ I2'). cbn [di_ida di_pad di_next]. rewrite R3. reflexivity.
      - cbn [dcalls ida_run] in R3. injection R3 as <- <-. reflexivity. }
    rewrite E3. cbn [di_ida di_pad di_next]. rewrite (i_thr _ _ _ _ _ _ _ _ _ I3), share_ends_run.
    assert (EC : map (fun j => (Z.of_nat j, @nil Z, true)) (seq 0 t) = end_calls chan) by (unfold end_calls, chan; rewrite map_map; reflexivity). rewrite EC.
    set (Pre := dcalls 0 msg). set (Post := c3 ++ end_calls chan). set (Sf := fun c => stream c (Pre ++ Post)).
    assert (BM : bytes (marked pad msg)) by (rewrite PM; apply bytes_app; split; [exact HB|unfold mk; destruct pad; [|constructor]; constructor; [unfold byte; lia|constructor]]).
    assert (SfE : forall c, (c < t)%nat -> Sf (Z.of_nat c) = every t c (marked pad msg)).
    { intros c Hc. unfold Sf, Post, Pre, c3. rewrite app_assoc, <- dcalls_app, <- PM, stream_app, stream_end_calls, app_nil_r, stream_dcalls by auto. rewrite Nat.sub_0_r. reflexivity. }
    destruct (fits_exists t chan Sf Ht HLc NDc Wc) as (pol & HF). { intros c Hc. apply in_map_iff in Hc. destruct Hc as (i & <- & Hi). apply in_seq in Hi. rewrite SfE by lia. apply every_bytes; auto. }
    pose proof (fits_word pol t chan Sf outs Ht Wc Wo HF) as HW.
    assert (OP : Forall (open_call chan) Pre) by (apply dcalls_open; exact Ht).
    destruct (run_inv cut KRaw t outs prop chan Ht HLc Pre (fun _ => []) [] 0 a0 I0 OP) as (j1 & ids & b1 & f1 & gs1 & Q1 & Q2 & Q3 & Q4).
    assert (RP : ida_run cut KRaw a0 Pre = Some (a2, e1 ++ e2)) by (unfold Pre, msg; rewrite dcalls_app, ida_run_app, R1, R2; reflexivity). rewrite RP in Q1.
    assert (b1 = a2 /\ f1 = e1 ++ e2) as [-> ->] by (split; congruence).
    specialize (Q4 Sf (fun j o => gf_eval (pol j) o) HW). assert (Q4' : concat gs1 = wrows outs (fun j o => gf_eval (pol j) o) 0 j1) by (apply Q4; intros c _; exists (stream c Post); cbn [app]; unfold Sf; apply stream_app). clear Q4.
    pose proof (inv_prop _ _ _ _ _ _ _ _ _ (me - 1)%Z Q2) as Q2'.
    destruct (round_run cut KRaw t outs (me - 1) chan Ht NDc HLc Sf (fun j o => gf_eval (pol j) o) HW Post chan _ _ _ _ _ Q2') as (j2 & gs2' & o & f1 & f2 & o' & P1 & P2 & P3 & P4 & P5).
    { intros c. tauto. }
    { unfold Post. apply (one_message_open chan c3 chan (incl_refl _) O3). apply one_message_ends. auto. }
    { intros c. unfold Sf. cbn [app]. apply stream_app. }
    unfold st_of in Q3. destruct (snks_raw t outs prop (fun j o => gf_eval (pol j) o) gs1 qu 0 j1 NDo Q4') as (g1 & U1 & A1 & A2 & A3 & A4). unfold a0 in Q3. cbn [ia_oq ia_queue] in Q3. rewrite U1 in Q3. injection Q3 as O1 O2 O4.
    unfold st_of in P2. unfold ida_set_prop in P2. cbn [ia_oq ia_queue] in P2. rewrite <- O1, <- O2 in P2. destruct (snks_raw t outs (me - 1) (fun j o => gf_eval (pol j) o) gs2' qu j1 j2 NDo P4) as (g2 & U2 & B1 & B2 & B3 & B4). rewrite U2 in P2.
    assert (f1 = g2 /\ o = (repeat [] (length outs), qu)) as [-> ->] by (split; congruence).
    assert (P3' : o' = (repeat [] (length outs), qu) /\ f2 = (if (me - 1 =? 0)%Z then [] else map (fun c => IEnd (Some c)) outs)) by (unfold snk_end in P3; cbn in P3; split; congruence). destruct P3' as [-> ->]. cbn [fst snd] in P1.
    unfold Post in P1. rewrite ida_run_app, R3 in P1. destruct (ida_run cut KRaw a3 (end_calls chan)) as [[a5 e5]|]; [|discriminate]. injection P1 as V1 V2. subst a5.
    exists (e1 ++ e2 ++ e3 ++ e5), pol. split; [rewrite app_nil_r, dnext_mod by exact Ht; reflexivity|]. split.
    { intros j. destruct (HF j) as (F1 & F2 & F3). split; [exact F1|]. split; [exact F2|]. intros c Hc. rewrite F3, SfE by (auto; apply in_map, in_seq; lia). reflexivity. }
    assert (WN : (j1 + j2)%nat = info_words (marked pad msg)).
    { cbn [Nat.add] in P5. rewrite P5. destruct (proj1 (words_for_spec _ _) (eq_refl (words_for (length (every t 0 (marked pad msg)))))) as [G1 G2]. fold (info_words (marked pad msg)) in *. apply words_needed_is.
      - intros c Hc. apply in_map_iff in Hc. destruct Hc as (i & <- & Hi). apply in_seq in Hi. rewrite SfE by lia. pose proof (every_shorter (marked pad msg) i). lia.
      - destruct G2 as [Q|Q]; [auto|]. right. exists (Z.of_nat 0). split; [apply in_map, in_seq; lia|]. rewrite SfE by lia. exact Q. }
    rewrite <- WN. assert (EV : e1 ++ e2 ++ e3 ++ e5 = g1 ++ g2 ++ (if (me - 1 =? 0)%Z then [] else map (fun c => IEnd (Some c)) outs)) by (rewrite V2, O4, <- app_assoc; reflexivity). rewrite EV. clear EV.
    assert (SE : forall c, sent c (if (me - 1 =? 0)%Z then [] else map (fun c => IEnd (Some c)) outs) = []) by (intros c; destruct (me - 1 =? 0)%Z; [reflexivity|apply sent_ends]).
    split; [|split; [|split]].
    + intros x Hx. rewrite !sent_app, !ended_app, SE, app_nil_r, A1, B1, A4, B4 by auto. split; [apply word_bytes_app|]. cbn [Nat.add]. destruct (me - 1 =? 0)%Z; [reflexivity|]. rewrite ended_ends by auto. destruct (in_dec Z.eq_dec x outs); [reflexivity|contradiction].
    + intros x Hx. rewrite !sent_app, !ended_app, SE, app_nil_r, A2, B2, A4, B4 by auto. split; [reflexivity|]. cbn [Nat.add]. destruct (me - 1 =? 0)%Z; [reflexivity|]. rewrite ended_ends by auto. destruct (in_dec Z.eq_dec x outs); [contradiction|reflexivity].
    + rewrite !sent_app, SE, A3, B3. reflexivity.
    + rewrite !ended_app, A4, B4. cbn [Nat.add]. destruct (me - 1 =? 0)%Z; [reflexivity|apply ended_none_ends].
  Qed.
End Dispersal.

Lemma numbers_in : forall t o, In o (map Z.of_nat (seq 0 t)) -> (Z.to_nat o < t)%nat /\ o = Z.of_nat (Z.to_nat o).
Proof. intros t o H. apply in_map_iff in H. destruct H as (i & <- & Hi). apply in_seq in Hi. rewrite Nat2Z.id. split; [lia|reflexivity]. Qed.
Theorem info_round : forall cut t prop ids (K : nat) pol pad calls, (1 <= t)%nat -> (Z.of_nat t <= 2 ^ 32)%Z -> NoDup ids -> length ids = t -> Forall is_word ids -> one_message_each ids calls ->
  (forall j, (length (pol j) <= t)%nat /\ Forall is_word (pol j)) -> (forall c, In c ids -> stream c calls = word_bytes (fun j => gf_eval (pol j) c) 0 K) ->
  let outs := map Z.of_nat (seq 0 t) in
  let fresh := Ida t [] 0 0 outs (repeat [] (length outs)) [] prop in
  exists q e1, ida_run cut (KInfo pad) fresh calls =
      Some (fresh, e1 ++ (if pad then [IData None (padrm_all padrm_init (cut q))] else []) ++ (if (prop =? 0)%Z then [] else [IEnd None])) /\
    sent None e1 ++ q = deal outs (fun o => word_bytes (fun j => gf_eval (pol j) o) 0 K) (4 * K) /\ length q = (if pad then Nat.min (4 * t) (4 * K * t) else 0%nat) /\ (forall c, ended c e1 = 0%nat).
Proof.
  intros cut t prop ids K pol pad calls Ht Htw ND HL Wi HM HP HS outs fresh. set (pol' := fun j => if Nat.ltb j K then pol j else []).
  assert (Wo : Forall is_word outs) by (apply numbers_word; auto). assert (Lo : length outs = t) by (unfold outs; rewrite map_length; apply seq_length).
  assert (EW : forall j c, is_word c -> is_word (gf_eval (pol j) c)). { intros j c Hc. apply (proj2 (is_word_iff _)). apply gf_eval_word; [apply Forall_is_word; apply HP|apply is_word_iff; auto]. }
  assert (HF : fits pol' t ids (fun c => stream c calls)).
  { intros j. unfold pol'. split; [|split].
    - destruct (Nat.ltb j K); [apply HP|cbn; lia].
    - destruct (Nat.ltb j K); [apply HP|constructor].
    - intros c Hc. rewrite (HS c Hc), word_at_bytes by (intros i; apply EW; rewrite Forall_forall in Wi; auto). destruct (Nat.ltb j K); reflexivity. }
  destruct (round_run cut (KInfo pad) t outs prop ids Ht ND HL (fun c => stream c calls) (fun j o => gf_eval (pol' j) o) (fits_word pol' t ids _ _ Ht Wi Wo HF) calls ids (fun _ => []) (fun _ => false) [] 0%nat fresh) as (n & gs & o & e1 & e2 & o' & H1 & H2 & H3 & H4 & H5); auto.
  - apply inv_start; auto.
  - intros c. tauto.
  - assert (HK : n = K).
    { cbn [Nat.add] in H5. rewrite H5. destruct ids as [|c0 ids]; [cbn in HL; lia|]. apply words_needed_is.
      - intros c Hc. rewrite HS, word_bytes_length by auto. lia.
      - destruct K; [auto|]. right. exists c0. split; [cbn; auto|]. rewrite HS, word_bytes_length by (cbn; auto). lia. }
    subst n. unfold st_of in H2. unfold fresh in H2. cbn [ia_oq ia_queue] in H2. assert (Lo1 : (1 <= length outs)%nat) by lia.
    destruct (snks_info t outs prop (fun j o => gf_eval (pol' j) o) pad gs [] 0 K Lo1 Lo) as (e & q & E1 & A1 & A2 & A3); [destruct pad; cbn [length]; lia|exact H4|].
    rewrite E1 in H2. assert (e1 = e /\ o = (repeat [] (length outs), q)) as [-> ->] by (split; congruence).
    exists q, e. rewrite H1. split; [|split; [|split; [exact A2|exact A3]]].
    + unfold snk_end in H3. destruct pad; cbn in H3; injection H3 as <- <-; [reflexivity|]. destruct q; [reflexivity|discriminate].
    + rewrite A1. cbn [app]. unfold deal. f_equal. apply map_ext. intros i. apply map_ext. intros x. f_equal. apply word_bytes_ext. intros j Hj. unfold pol'. destruct (Nat.ltb_spec j K); [reflexivity|lia].
Qed.
(** the last 4t bytes that were kept back, and what is made of them *)
Theorem info_recovered : forall cut t prop ids pol pad calls msg, (1 <= t)%nat -> (Z.of_nat t <= 2 ^ 32)%Z -> NoDup ids -> length ids = t -> Forall is_word ids -> one_message_each ids calls -> bytes msg ->
  (forall j, (length (pol j) <= t)%nat /\ Forall is_word (pol j) /\ forall c, (c < t)%nat -> gf_eval (pol j) (Z.of_nat c) = word_at (every t c (marked pad msg)) j) ->
  (forall c, In c ids -> stream c calls = word_bytes (fun j => gf_eval (pol j) c) 0 (info_words t (marked pad msg))) ->
  let outs := map Z.of_nat (seq 0 t) in
  let fresh := Ida t [] 0 0 outs (repeat [] (length outs)) [] prop in
  exists n evs, (n < 4 * t)%nat /\ ((length (marked pad msg) + n) mod (4 * t) = 0)%nat /\ ida_run cut (KInfo pad) fresh calls = Some (fresh, evs) /\ ended None evs = (if (prop =? 0)%Z then 0%nat else 1%nat) /\
    sent None evs = if pad then firstn (length msg + 1 + n - 4 * t) msg ++ padrm_all padrm_init (cut (padded (skipn (length msg + 1 + n - 4 * t) msg) n)) else msg ++ repeat 0%Z n.
Proof.
  intros cut t prop ids pol pad calls msg Ht Htw ND HL Wi HM HB HP HS outs fresh. set (P := marked pad msg) in *. set (K := info_words t P) in *.
  assert (BP : bytes P). { unfold P, marked. destruct pad; [|exact HB]. apply bytes_app. split; [exact HB|]. constructor; [unfold byte; lia|constructor]. }
  pose proof (info_words_ge t Ht P) as G1. pose proof (info_words_lt t Ht P) as G2. fold K in G1, G2.
  destruct (info_round cut t prop ids K pol pad calls Ht Htw ND HL Wi HM) as (q & e1 & R1 & R2 & R3 & R4); [intros j; destruct (HP j) as (P1 & P2 & _); auto|exact HS|]. fold outs in R1, R2. fold fresh in R1.
  exists (4 * K * t - length P)%nat. rewrite R1. eexists. split; [lia|]. split; [replace (length P + (4 * K * t - length P))%nat with (K * (4 * t))%nat by lia; apply Nat.mod_mul; lia|]. split; [reflexivity|].
  assert (DE : deal outs (fun o => word_bytes (fun j => gf_eval (pol j) o) 0 K) (4 * K) = P ++ repeat 0%Z (4 * K * t - length P)).
  { rewrite <- (deal_every t K P Ht BP G1). unfold deal, outs. f_equal. apply map_ext. intros i. apply map_ext_in. intros o Ho. f_equal. apply word_bytes_ext. intros j _. destruct (numbers_in t o Ho) as [N1 N2]. rewrite N2 at 1. apply HP. exact N1. }
  rewrite DE in R2. set (n := (4 * K * t - length P)%nat) in *.
  assert (SN : sent None (if (prop =? 0)%Z then [] else [IEnd None]) = []) by (destruct (prop =? 0)%Z; reflexivity).
  split. { rewrite !ended_app, R4. destruct pad, (prop =? 0)%Z; reflexivity. }
  rewrite !sent_app, SN, app_nil_r. destruct pad.
  - cbn [sent]. rewrite app_nil_r. assert (PE : P ++ repeat 0%Z n = padded msg n) by (unfold P, marked, padded; rewrite <- app_assoc; reflexivity). rewrite PE in R2.
    assert (LP : length P = (length msg + 1)%nat) by (unfold P, marked; rewrite app_length; reflexivity).
    assert (K1 : (1 <= K)%nat) by (destruct K; [lia|lia]). replace (Nat.min (4 * t) (4 * K * t)) with (4 * t)%nat in R3 by nia.
    assert (LS : length (sent None e1) = (length msg + 1 + n - 4 * t)%nat) by (apply (f_equal (@length Z)) in R2; rewrite app_length, padded_length in R2; lia).
    rewrite <- LS. assert (LM : (length (sent None e1) <= length msg)%nat) by lia. f_equal.
    + apply (f_equal (firstn (length (sent None e1)))) in R2. rewrite firstn_app_exact in R2. rewrite R2 at 1. unfold padded. rewrite firstn_app. replace (length (sent None e1) - length msg)%nat with 0%nat by lia. apply app_nil_r.
    + f_equal. f_equal. apply (f_equal (skipn (length (sent None e1)))) in R2. rewrite skipn_app_exact in R2. rewrite R2. unfold padded. rewrite skipn_app. replace (length (sent None e1) - length msg)%nat with 0%nat by lia. reflexivity.
  - destruct q; [|discriminate]. rewrite app_nil_r in *. cbn [sent]. rewrite R2. reflexivity.
Qed.
