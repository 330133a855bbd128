(** C27-C30: buffered filters, block paddings, digest verification. *)
From Coq Require Import ZArith List Bool Arith Lia.
From Verif Require Import Base Blocks Mem HashModel HashSpec HashProofs ModesModel ModesSpec StreamProofs ModesProofs ModesProperties
  FilterModel FilterSpec FilterProofs HashProperties.
Import ListNotations.
Local Open Scope nat_scope.

(* -------------------------------------------------------------------- C27 *)

Lemma delivers_weaken : forall b (P Q : bool -> fw -> Prop) es ss, (forall d s, P d s -> Q d s) -> delivers b P es ss -> delivers b Q es ss.
Proof. intros b P Q es ss H D. induction D; constructor; auto. Qed.

(** Any sequence of Put, MessageEnd and Flush: the virtual calls are the ones of a plain buffer that releases
    whole blocks as soon as lastSize bytes stay behind; after LastPut throws it goes on empty. *)
Theorem C27_history : forall f b l ops, b <> 0 ->
  delivers b (resumes f b l) (fst (fw_run (fw_new f b l) ops)) (fst (spec_wrun f b l (false, []) ops)).
Proof.
  intros f b l ops Hb. pose proof (run_refines f b l Hb ops _ _ (new_frep f b l Hb)) as X.
  destruct (fw_run (fw_new f b l) ops) as [es s']. destruct (spec_wrun f b l (false, []) ops) as [ss st]. destruct X as [X _]. cbn [fst].
  eapply delivers_weaken; [|exact X]. intros d s Hd ops'. pose proof (run_refines f b l Hb ops' _ _ Hd) as Y.
  destruct (fw_run s ops') as [es2 s2]. destruct (spec_wrun f b l (d, []) ops') as [ss2 st2]. destruct Y as [Y _]. cbn [fst].
  eapply delivers_weaken; [|exact Y]. auto.
Qed.
Lemma fw_run_app : forall a c s, fw_run s (a ++ c) = let '(es, s1) := fw_run s a in let '(es', s2) := fw_run s1 c in (es ++ es', s2).
Proof.
  induction a as [|op a IH]; intros c s; cbn [app fw_run].
  - destruct (fw_run s c). reflexivity.
  - destruct (fw_step s op) as [es s1]. rewrite IH. destruct (fw_run s1 a) as [es2 s2]. destruct (fw_run s2 c) as [es3 s3]. rewrite app_assoc. reflexivity.
Qed.
Lemma message_one : forall f b l s m, b <> 0 -> frep f b l s (false, []) -> ms_end m <> 0%Z ->
  exists es s', fw_run s (ms_ops m) = (es, s') /\ frep f b l s' (false, []) /\ message_events f b l (ms_data m) (ms_end m) (map fst es).
Proof.
  intros f b l s m Hb Hs He. destruct (message_run f b l Hb s false m ltac:(discriminate) Hs He) as (es1 & s1 & es2 & dL & sL & sE & s2 & R1 & R2 & F1 & F2 & F3 & F4).
  unfold ms_ops, message_ops. rewrite fw_run_app, R1. cbn [fw_run]. rewrite R2. do 2 eexists. split; [reflexivity|]. split; [exact F3|].
  unfold message_events. rewrite app_nil_r. destruct (length (ms_data m) <? f).
  - destruct F4 as [-> ->]. reflexivity.
  - destruct F4 as (mids & M1 & M2 & M3). exists mids. unfold fstep in *. rewrite !map_app in *. rewrite app_assoc, M1. split; [|split]; auto.
Qed.
(** Any messages, split in any way: each is delivered as its first firstSize bytes, its middle, its tail. *)
Theorem C27_messages : forall f b l ms, b <> 0 -> Forall (fun m => ms_end m <> 0%Z) ms ->
  exists evss, map fst (fst (fw_run (fw_new f b l) (concat (map ms_ops ms)))) = concat evss /\
    Forall2 (fun m evs => message_events f b l (ms_data m) (ms_end m) evs) ms evss.
Proof.
  intros f b l ms Hb. generalize (fw_new f b l), (new_frep f b l Hb). induction ms as [|m ms IH]; intros s Hs H.
  - exists []. split; [reflexivity|constructor].
  - inversion H; subst. destruct (message_one f b l s m Hb Hs ltac:(assumption)) as (es & s' & R & Hs' & Hm).
    cbn [map concat]. rewrite fw_run_app, R. destruct (IH s' Hs' ltac:(assumption)) as (evss & E1 & E2).
    destruct (fw_run s' (concat (map ms_ops ms))) as [es2 s2]. cbn [fst] in *. exists (map fst es :: evss). cbn [concat]. unfold fstep in *. rewrite map_app, E1. auto.
Qed.
(** Nothing is lost, added or reordered. *)
Theorem C27_intact : forall f b l D e evs, message_events f b l D e evs -> concat (map event_data evs) = D.
Proof.
  intros f b l D e evs H. unfold message_events in H. destruct (length D <? f).
  - subst. cbn [map concat event_data]. rewrite app_nil_r. reflexivity.
  - destruct H as (mids & -> & H1 & H2). cbn [map concat event_data]. rewrite map_app, concat_app. cbn [map concat event_data]. rewrite !app_nil_r.
    assert (E : concat (map event_data mids) = concat (map (fun e0 => match e0 with ENext _ d => d | _ => [] end) mids)).
    { clear H2. induction H1 as [|x xs (m & d & -> & _) _ IH]; [reflexivity|]. cbn [map concat event_data]. rewrite IH. reflexivity. }
    rewrite E, H2, firstn_skipn. apply firstn_skipn.
Qed.
Example C27_example :
  map fst (fst (fw_run (fw_new 3 4 2) (ms_ops (mkMsg [([1;2]%Z, false); ([3;4;5;6;7;8;9]%Z, false); ([10]%Z, false)] ([11;12;13;14;15]%Z, false) 1)))) =
  [EFirst [1;2;3]; ENext false [4;5;6;7]; ENext true [8;9;10;11]; ELast [12;13;14;15]; EEnd 1]%Z.
Proof. vm_compute. reflexivity. Qed.
Example C27_flush_example :
  map fst (fst (fw_run (fw_new 0 1 4) [WPut [1;2;3]%Z 0 false; WFlush true; WPut [4;5;6;7;8]%Z 0 false; WPut [] 1 false])) =
  [EFirst []; ENext true [1;2;3]; EFlush; ENext false [4]; ELast [5;6;7;8]; EEnd 1]%Z.
Proof. vm_compute. reflexivity. Qed.

(* -------------------------------------------------------------------- C28, C29 *)

Lemma tail_bounds : forall b l n, b <> 0 -> tail_length b l n <= n.
Proof. intros b l n Hb. unfold tail_length. destruct (Nat.leb_spec n l); auto. pose proof (Nat.mod_le (n - l) b Hb). lia. Qed.
Lemma tail0 : forall b n, b <> 0 -> tail_length b 0 n = n mod b.
Proof. intros b n Hb. unfold tail_length. destruct (Nat.leb_spec n 0); [replace n with 0 by lia; rewrite Nat.mod_0_l; auto|]. rewrite Nat.sub_0_r. reflexivity. Qed.
Lemma tail_self : forall b n, b <> 0 -> n mod b = 0 -> 0 < n -> tail_length b b n = b.
Proof.
  intros b n Hb Hm Hn. apply Nat.mod_divides in Hm; auto. destruct Hm as [q ->]. unfold tail_length. destruct (Nat.leb_spec (b * q) b) as [L|L].
  - destruct q as [|[|q]]; try lia.
  - replace (b * q - b) with ((q - 1) * b) by (rewrite Nat.mul_sub_distr_r, Nat.mul_comm; lia). rewrite Nat.mod_mul by auto. lia.
Qed.
Lemma tail_other : forall b n, b <> 0 -> n mod b <> 0 \/ n = 0 -> tail_length b b n <> b.
Proof.
  intros b n Hb Hm. unfold tail_length. destruct (Nat.leb_spec n b) as [L|L].
  - intros ->. rewrite Nat.mod_same in Hm by auto. lia.
  - destruct Hm as [Hm| ->]; [|lia]. intros E. apply Hm. replace n with (n - b + 1 * b) by lia. rewrite Nat.mod_add by auto. lia.
Qed.

Section Filters.
  Context {C1 C2 : Type} (e : stream C1) (d : stream C2) (ok1 : C1 -> Prop) (ok2 : C2 -> Prop) (R : C1 -> C2 -> Prop).
  Variables (pad : padding) (opt1 opt2 : nat) (space1 space2 : nat -> nat).
  Hypothesis Hpair : cipher_pair e d ok1 ok2 R.
  Hypothesis Hroom1 : room e ok1 opt1 space1.
  Hypothesis Hroom2 : room d ok2 opt2 space2.
  Hypothesis Hs : so_s e <> 0.
  Notation sz := (so_s e).
  Notation h1 := (sf_handler e pad opt1 space1).
  Notation h2 := (sf_handler d pad opt2 space2).

  Lemma lbs_enc : so_minlast e = 0 -> last_block_size e pad = 0.
  Proof. intros H. unfold last_block_size. rewrite H, (proj1 (cp_fwd _ _ _ _ _ Hpair)). cbn [Nat.ltb Nat.leb negb andb]. rewrite andb_false_r. reflexivity. Qed.

  (** Encryption with a padding scheme. *)
  Lemma enc_padded : forall s d0 m c, is_padding pad = true -> sz < 256 -> frep 0 sz 0 s (d0, []) -> ms_end m <> 0%Z -> ok1 c -> bytes (ms_data m) ->
    let D := ms_data m in
    exists P xs sF dF, filter_run h1 (s, c) (ms_ops m) = (xs, (sF, fst (so_process e c (D ++ P)))) /\ ended xs Returns /\
      all_bytes xs = snd (so_process e c (D ++ P)) /\ frep 0 sz 0 sF (dF, []) /\ bytes P /\ length (D ++ P) mod sz = 0 /\ sz <= length (D ++ P) /\
      length (D ++ P) - sz <= length D /\ valid_padding pad sz (skipn (length (D ++ P) - sz) (D ++ P)) (skipn (length (D ++ P) - sz) D).
  Proof.
    intros s d0 m c Hp H256 Hf He Hc HD D. pose proof (cp_enc _ _ _ _ _ Hpair) as Ok.
    set (k := length D - tail_length sz 0 (length D)).
    pose proof (tail0 sz (length D) Hs) as T0. pose proof (Nat.mod_upper_bound (length D) sz Hs) as T1. pose proof (Nat.mod_le (length D) sz Hs) as T2.
    assert (Lt : length (skipn k D) = length D mod sz) by (rewrite skipn_length; unfold k; lia).
    destruct (pad_block_valid e pad (skipn k D) Hp ltac:(lia) H256) as (P & P1 & P2 & P3 & P4).
    assert (Hk : length (firstn k D) mod sz = 0).
    { rewrite firstn_length. replace (Nat.min k (length D)) with k by (unfold k; lia). unfold k. rewrite T0.
      pose proof (Nat.div_mod (length D) sz Hs). replace (length D - length D mod sz) with (length D / sz * sz) by (rewrite Nat.mul_comm; lia). apply Nat.mod_mul; auto. }
    assert (ED : D ++ P = firstn k D ++ (skipn k D ++ P)) by (rewrite app_assoc, firstn_skipn; reflexivity).
    assert (BB : bytes (skipn k D ++ P)) by (apply bytes_app; split; auto; apply bytes_skipn; auto).
    assert (LL : length (skipn k D ++ P) mod sz = 0) by (rewrite P2; apply Nat.mod_same; auto).
    destruct (proc_app e ok1 Ok c (firstn k D) (skipn k D ++ P) Hc (bytes_firstn k D HD) BB Hk LL) as [A1 A2]. rewrite <- ED in A1, A2.
    assert (EL : sf_last e pad (fst (so_process e c (firstn k D))) (skipn k D) =
                 (fst (so_process e c (D ++ P)), [OPut (snd (so_process e (fst (so_process e c (firstn k D))) (skipn k D ++ P)))], Returns)).
    { unfold sf_last. rewrite (proj1 (cp_fwd _ _ _ _ _ Hpair)). rewrite A1. rewrite <- P1.
      destruct pad; try discriminate; destruct (so_process e (fst (so_process e c (firstn k D))) (pad_block e _ (skipn k D))) as [c' out]; reflexivity. }
    destruct (sf_message e ok1 pad opt1 space1 Ok Hroom1 Hs 0 s d0 m c _ _ _ Hf He Hc HD EL) as (xs & sF & dF & F1 & F2 & F3 & F4).
    assert (LP : length (D ++ P) - sz = k /\ sz <= length (D ++ P)).
    { rewrite ED, app_length, P2, firstn_length. replace (Nat.min k (length D)) with k by (unfold k; lia). lia. }
    destruct LP as [LP1 LP2].
    exists P, xs, sF, dF. rewrite LP1. split; [exact F1|]. split; [exact F2|]. split; [|split; [exact F4|split; [exact P3|split; [|split; [exact LP2|split]]]]].
    - rewrite F3, A2. cbn [obytes]. rewrite app_nil_r. reflexivity.
    - rewrite ED, app_length. apply mod_add0; auto.
    - unfold k. lia.
    - replace (skipn k (D ++ P)) with (skipn k D ++ P); [exact P4|]. rewrite skipn_app_le by (unfold k; lia). reflexivity.
  Qed.
  (** Decryption with a padding scheme, of anything. *)
  Lemma lbs_dec : so_minlast d = 0 -> is_padding pad = true -> 1 < sz -> last_block_size d pad = sz.
  Proof.
    intros H Hp H1. unfold last_block_size. rewrite H, (proj2 (cp_fwd _ _ _ _ _ Hpair)), (cp_s _ _ _ _ _ Hpair). replace (1 <? sz) with true by (symmetry; apply Nat.ltb_lt; auto).
    destruct pad; try discriminate; reflexivity.
  Qed.
  Lemma dec_padded : forall s d0 m c, is_padding pad = true -> frep 0 sz sz s (d0, []) -> ms_end m <> 0%Z -> ok2 c -> bytes (ms_data m) ->
    let X := ms_data m in let P := snd (so_process d c X) in let k := length X - sz in
    exists xs sF cF dF, filter_run h2 (s, c) (ms_ops m) = (xs, (sF, cF)) /\ frep 0 sz sz sF (dF, []) /\ ok2 cF /\
      if (length X mod sz =? 0) && (0 <? length X) then
        cF = fst (so_process d c X) /\
        match unpad_length d pad (skipn k P) with
        | Some n => ended xs Returns /\ all_bytes xs = firstn k P ++ firstn n (skipn k P)
        | None => ended xs Throws /\ all_bytes xs = firstn k P
        end
      else ended xs Throws.
  Proof.
    intros s d0 m c Hp Hf He Hc HX X P k. pose proof (cp_dec _ _ _ _ _ Hpair) as Ok. pose proof (cp_s _ _ _ _ _ Hpair) as Es.
    assert (Hsd : so_s d <> 0) by (rewrite Es; auto).
    set (kk := length X - tail_length sz sz (length X)).
    destruct ((length X mod sz =? 0) && (0 <? length X)) eqn:Eb.
    - apply andb_true_iff in Eb. destruct Eb as [E1 E2]. apply Nat.eqb_eq in E1. apply Nat.ltb_lt in E2.
      assert (Ek : kk = k) by (unfold kk, k; rewrite tail_self; auto).
      assert (Lk : sz <= length X). { apply Nat.mod_divides in E1; auto. destruct E1 as [q Eq]. rewrite Eq in *. destruct q; [lia|]. rewrite Nat.mul_succ_r. lia. }
      assert (Hk : length (firstn k X) mod sz = 0).
      { rewrite firstn_length. replace (Nat.min k (length X)) with k by (unfold k; lia). unfold k. apply mod_sub0; auto. apply Nat.mod_same; auto. }
      assert (Lt : length (skipn k X) = sz) by (rewrite skipn_length; unfold k; lia).
      destruct (proc_app d ok2 Ok c (firstn k X) (skipn k X) Hc (bytes_firstn k X HX) (bytes_skipn k X HX)) as [A1 A2]; rewrite ?Es, ?Lt; auto.
      { apply Nat.mod_same; auto. }
      rewrite firstn_skipn in A1, A2.
      destruct (proc_ok d ok2 Ok c (firstn k X) Hc (bytes_firstn k X HX)) as (B1 & B2 & B3); [rewrite Es; auto|].
      destruct (proc_ok d ok2 Ok _ (skipn k X) B1 (bytes_skipn k X HX)) as (B4 & B5 & B6); [rewrite Es, Lt; apply Nat.mod_same; auto|].
      assert (Lf : length (firstn k X) = k) by (rewrite firstn_length; unfold k; lia).
      set (blk := snd (so_process d (fst (so_process d c (firstn k X))) (skipn k X))) in *.
      assert (EP1 : firstn k P = snd (so_process d c (firstn k X))).
      { unfold P. rewrite A2. rewrite firstn_app_ge by lia. replace (k - length (snd (so_process d c (firstn k X)))) with 0 by lia. apply app_nil_r. }
      assert (EP2 : skipn k P = blk).
      { unfold P. rewrite A2. rewrite skipn_app_ge by lia. replace (k - length (snd (so_process d c (firstn k X)))) with 0 by lia. reflexivity. }
      rewrite EP1, EP2.
      assert (EL : sf_last d pad (fst (so_process d c (firstn kk X))) (skipn kk X) =
                   match unpad_length d pad blk with Some n => (fst (so_process d c X), [OPut (firstn n blk)], Returns) | None => (fst (so_process d c X), [], Throws) end).
      { rewrite Ek. unfold sf_last. rewrite (proj2 (cp_fwd _ _ _ _ _ Hpair)), Lt, Es, Nat.eqb_refl. cbn [negb]. rewrite A1. unfold blk.
        destruct pad; try discriminate; destruct (so_process d (fst (so_process d c (firstn k X))) (skipn k X)) as [c' out]; cbn [fst snd]; destruct (unpad_length d _ out); reflexivity. }
      destruct (unpad_length d pad blk) as [n|].
      + destruct (sf_message d ok2 pad opt2 space2 Ok Hroom2 Hsd sz s d0 m c (fst (so_process d c X)) [OPut (firstn n blk)] Returns) as (xs & sF & dF & F1 & F2 & F3 & F4); auto.
        { rewrite Es. auto. } { rewrite Es. exact EL. }
        rewrite Es in F3, F4. fold X kk in F3. rewrite Ek in F3. exists xs, sF, (fst (so_process d c X)), dF. cbn [obytes] in F3. rewrite app_nil_r in F3. rewrite <- A1 in B4. auto 10.
      + destruct (sf_message d ok2 pad opt2 space2 Ok Hroom2 Hsd sz s d0 m c (fst (so_process d c X)) [] Throws) as (xs & sF & dF & F1 & F2 & F3 & F4); auto.
        { rewrite Es. auto. } { rewrite Es. exact EL. }
        rewrite Es in F3, F4. fold X kk in F3. rewrite Ek in F3. exists xs, sF, (fst (so_process d c X)), dF. cbn [obytes] in F3. rewrite app_nil_r in F3. rewrite <- A1 in B4. auto 10.
    - assert (Et : tail_length sz sz (length X) <> sz).
      { apply tail_other; auto. destruct (Nat.eqb_spec (length X mod sz) 0); auto. destruct (Nat.ltb_spec 0 (length X)); [discriminate|]. right. lia. }
      assert (Lt : length (skipn kk X) <> sz).
      { rewrite skipn_length. unfold kk. pose proof (tail_bounds sz sz (length X) Hs). lia. }
      set (c1 := fst (so_process d c (firstn kk X))).
      assert (EL : sf_last d pad c1 (skipn kk X) = (c1, [], Throws)).
      { unfold sf_last. rewrite (proj2 (cp_fwd _ _ _ _ _ Hpair)), Es. destruct (Nat.eqb_spec (length (skipn kk X)) sz); [contradiction|]. destruct pad; try discriminate; reflexivity. }
      destruct (sf_message d ok2 pad opt2 space2 Ok Hroom2 Hsd sz s d0 m c c1 [] Throws) as (xs & sF & dF & F1 & F2 & F3 & F4); auto.
      { rewrite Es. auto. } { rewrite Es. exact EL. }
      rewrite Es in F4. exists xs, sF, c1, dF. split; [exact F1|]. split; [exact F4|]. split; [|exact F2].
      destruct (proc_ok d ok2 Ok c (firstn kk X) Hc (bytes_firstn kk X HX)) as (B1 & _); auto.
      rewrite Es, firstn_length. unfold kk. rewrite tail_release by auto. destruct (release_le sz sz (length X) Hs) as (W1 & W2 & _).
      rewrite Nat.min_l by auto. exact W2.
  Qed.

  (** C28: PKCS, ONE_AND_ZEROS and W3C padding: any messages, one after the other through the same two
      filters, split in any way on both sides, come out unchanged. *)
  Theorem C28_padded_round_trip : forall ms c c', is_padding pad = true -> 1 < sz -> sz < 256 -> so_minlast e = 0 -> R c c' ->
    Forall (fun m => ms_end m <> 0%Z /\ bytes (ms_data m)) ms ->
    sessions h1 h2 (fun D => D) (sf_new e pad, c) (sf_new d pad, c') ms.
  Proof.
    intros ms c c' Hp H1 H256 Hml HR HF. pose proof (cp_s _ _ _ _ _ Hpair) as Es.
    assert (N1 : frep 0 sz 0 (sf_new e pad) (false, [])) by (unfold sf_new; rewrite lbs_enc by auto; apply new_frep; auto).
    assert (N2 : frep 0 sz sz (sf_new d pad) (false, [])).
    { unfold sf_new. rewrite lbs_dec; auto; [|rewrite (cp_minlast _ _ _ _ _ Hpair); auto]. rewrite Es. apply new_frep; auto. }
    revert N1 N2 HR. generalize false at 2. intros d2. generalize false. intros d1. generalize (sf_new e pad) as s1, (sf_new d pad) as s2.
    intros s1 s2. revert s1 s2 d1 d2 c c'. induction HF as [|m ms [He HD] HF IH]; intros s1 s2 d1 d2 c c' N1 N2 HR; cbn [sessions]; [exact I|].
    destruct (cp_rel _ _ _ _ _ Hpair c c' HR) as [O1 O2].
    destruct (enc_padded s1 d1 m c Hp H256 N1 He O1 HD) as (P & xs & sF & dF & E1 & E2 & E3 & E4 & E5 & E6 & E7 & E8 & E9). rewrite E1.
    split; [exact E2|]. intros m' Em' He'. set (D := ms_data m) in *.
    assert (BD : bytes (D ++ P)) by (apply bytes_app; auto).
    destruct (proc_ok e ok1 (cp_enc _ _ _ _ _ Hpair) c (D ++ P) O1 BD E6) as (Q1 & Q2 & Q3).
    rewrite E3 in Em'. assert (BX : bytes (ms_data m')) by (rewrite Em'; auto).
    destruct (dec_padded s2 d2 m' c' Hp N2 He' O2 BX) as (ys & sG & cF & dG & G1 & G2 & _ & G3). rewrite G1.
    rewrite Em', Q3 in G3. rewrite E6 in G3. cbn [Nat.eqb andb] in G3. destruct (Nat.ltb_spec 0 (length (D ++ P))); [|lia].
    destruct (cp_inv _ _ _ _ _ Hpair c c' (D ++ P) HR BD E6) as [V1 V2]. rewrite V1 in G3. destruct G3 as [-> G3].
    set (k := length (D ++ P) - sz) in *.
    assert (Lb : length (skipn k (D ++ P)) = so_s d) by (rewrite skipn_length, Es; unfold k; lia).
    rewrite <- Es in E9. destruct (unpad_complete d pad _ _ Hp Lb ltac:(rewrite Es; auto) E9) as [U1 U2].
    rewrite U1, U2 in G3. destruct G3 as [G3 G4]. split; [exact G3|]. split.
    - rewrite G4. rewrite firstn_app_le by auto. apply firstn_skipn.
    - eapply IH; eauto.
  Qed.

  (** C29: what a decrypting filter with a padding scheme accepts, after any other messages: exactly the
      ciphertexts of a positive number of blocks whose last block decrypts to a valid padding; any other
      makes the last call throw. *)
  Lemma messages_state : forall ms s c d0 xs st, frep 0 sz sz s (d0, []) -> Forall (fun m => ms_end m <> 0%Z /\ bytes (ms_data m)) ms ->
    is_padding pad = true -> ok2 c -> filter_run h2 (s, c) (concat (map ms_ops ms)) = (xs, st) -> exists d1, frep 0 sz sz (fst st) (d1, []) /\ ok2 (snd st).
  Proof.
    induction ms as [|m ms IH]; intros s c d0 xs st Hf HF Hp Hc Er; cbn [map concat] in Er.
    - cbn [filter_run] in Er. inversion Er; subst. exists d0. auto.
    - inversion HF as [|? ? [He HX] HF']; subst. rewrite filter_run_app in Er.
      destruct (dec_padded s d0 m c Hp Hf He Hc HX) as (ys & sF & cF & dF & F1 & F2 & F3 & _). rewrite F1 in Er.
      destruct (filter_run h2 (sF, cF) (concat (map ms_ops ms))) as [zs st'] eqn:E2. inversion Er; subst.
      eapply (IH sF cF dF); eauto.
  Qed.
  Theorem C29_accepts_iff_valid : forall before m c0 xs0 s c, is_padding pad = true -> 1 < sz -> so_minlast d = 0 -> ok2 c0 ->
    Forall (fun m => ms_end m <> 0%Z /\ bytes (ms_data m)) (before ++ [m]) ->
    filter_run h2 (sf_new d pad, c0) (concat (map ms_ops before)) = (xs0, (s, c)) ->
    let X := ms_data m in let P := snd (so_process d c X) in let k := length X - sz in
    let accepted t := length X mod sz = 0 /\ 0 < length X /\ valid_padding pad sz (skipn k P) t in
    exists xs st, filter_run h2 (s, c) (ms_ops m) = (xs, st) /\
      ((exists t, accepted t /\ ended xs Returns /\ all_bytes xs = firstn k P ++ t) \/ (forall t, ~ accepted t) /\ ended xs Throws).
  Proof.
    intros before m c0 xs0 s c Hp H1 Hml Hc0 HF Hrun X P k accepted. pose proof (cp_s _ _ _ _ _ Hpair) as Es.
    apply Forall_app in HF. destruct HF as [HF1 HF2]. inversion HF2 as [|? ? [He HX] _]; subst.
    assert (N2 : frep 0 sz sz (sf_new d pad) (false, [])) by (unfold sf_new; rewrite lbs_dec by auto; rewrite Es; apply new_frep; auto).
    destruct (messages_state before _ _ _ _ _ N2 HF1 Hp Hc0 Hrun) as (d1 & Hf & Hc). cbn [fst snd] in Hf, Hc.
    destruct (dec_padded s d1 m c Hp Hf He Hc HX) as (xs & sF & cF & dF & F1 & F2 & F3 & F4). exists xs, (sF, cF). split; [exact F1|].
    fold X P k in F4. unfold accepted. destruct (Nat.eqb_spec (length X mod sz) 0) as [E1|E1]; cbn [andb] in F4.
    2:{ right. split; auto. intros t (A & _). contradiction. }
    destruct (Nat.ltb_spec 0 (length X)) as [E2|E2].
    2:{ right. split; auto. intros t (_ & A & _). lia. }
    destruct F4 as [_ F4].
    assert (Lb : length (skipn k P) = so_s d).
    { rewrite skipn_length, Es. unfold P, k. destruct (proc_ok d ok2 (cp_dec _ _ _ _ _ Hpair) c X Hc HX) as (_ & _ & L); [rewrite Es; auto|]. rewrite L.
      apply Nat.mod_divides in E1; auto. destruct E1 as [q Eq]. rewrite Eq in *. destruct q; [lia|]. rewrite Nat.mul_succ_r. lia. }
    destruct (unpad_length d pad (skipn k P)) as [n|] eqn:U.
    - left. destruct (unpad_sound d pad _ _ Hp Lb ltac:(rewrite Es; auto) U) as [U1 U2]. rewrite Es in U2. exists (firstn n (skipn k P)). tauto.
    - right. split; [|apply F4]. intros t (_ & _ & V). rewrite <- Es in V. destruct (unpad_complete d pad _ _ Hp Lb ltac:(rewrite Es; auto) V) as [V1 _]. congruence.
  Qed.

  (** C28: NO_PADDING on whole blocks (for a stream cipher, block size 1: any message). *)
  Lemma plain_tail : forall n, n mod sz = 0 -> n - tail_length sz 0 n = n.
  Proof. intros n H. rewrite tail0, H by auto. lia. Qed.
  Lemma nopad_one : forall C (o : stream C) ok opt space, so_s o = sz -> so_minlast o = 0 -> stream_ok o ok -> room o ok opt space -> is_padding pad = false ->
    forall s d0 m c, frep 0 sz 0 s (d0, []) -> ms_end m <> 0%Z -> ok c -> bytes (ms_data m) -> length (ms_data m) mod sz = 0 ->
    exists xs sF dF, filter_run (sf_handler o pad opt space) (s, c) (ms_ops m) = (xs, (sF, fst (so_process o c (ms_data m)))) /\ ended xs Returns /\
      all_bytes xs = snd (so_process o c (ms_data m)) /\ frep 0 sz 0 sF (dF, []).
  Proof.
    intros C o ok opt space Es Hml Ok Hr Hp s d0 m c Hf He Hc HD Hm.
    assert (Hso : so_s o <> 0) by (rewrite Es; auto).
    destruct (sf_message o ok pad opt space Ok Hr Hso 0 s d0 m c (fst (so_process o c (ms_data m))) [] Returns) as (xs & sF & dF & F1 & F2 & F3 & F4); auto.
    - rewrite Es. auto.
    - rewrite Es, plain_tail by auto. rewrite firstn_all, skipn_all. unfold sf_last. destruct pad; try discriminate; reflexivity.
    - rewrite Es in F3, F4. rewrite plain_tail, firstn_all in F3 by auto. cbn [obytes] in F3. rewrite app_nil_r in F3. eauto 10.
  Qed.
  Lemma lbs_plain : so_minlast e = 0 -> is_padding pad = false -> last_block_size e pad = 0 /\ last_block_size d pad = 0.
  Proof.
    intros H Hp. unfold last_block_size. rewrite (cp_minlast _ _ _ _ _ Hpair), H. cbn [Nat.ltb Nat.leb].
    destruct pad; try discriminate; rewrite !andb_false_r; auto.
  Qed.
  Theorem C28_no_padding_round_trip : forall ms c c', pad = NO_PADDING -> so_minlast e = 0 -> R c c' ->
    Forall (fun m => ms_end m <> 0%Z /\ bytes (ms_data m) /\ length (ms_data m) mod sz = 0) ms ->
    sessions h1 h2 (fun D => D) (sf_new e pad, c) (sf_new d pad, c') ms.
  Proof.
    intros ms c c' Hp Hml HR HF. pose proof (cp_s _ _ _ _ _ Hpair) as Es.
    assert (Hp2 : is_padding pad = false) by (rewrite Hp; reflexivity).
    destruct (lbs_plain Hml Hp2) as [B1 B2].
    assert (N1 : frep 0 sz 0 (sf_new e pad) (false, [])) by (unfold sf_new; rewrite B1; apply new_frep; auto).
    assert (N2 : frep 0 sz 0 (sf_new d pad) (false, [])) by (unfold sf_new; rewrite B2, Es; apply new_frep; auto).
    revert N1 N2 HR. generalize false at 2. intros d2. generalize false. intros d1. generalize (sf_new e pad) as s1, (sf_new d pad) as s2.
    intros s1 s2. revert s1 s2 d1 d2 c c'. induction HF as [|m ms (He & HD & Hm) HF IH]; intros s1 s2 d1 d2 c c' N1 N2 HR; cbn [sessions]; [exact I|].
    destruct (cp_rel _ _ _ _ _ Hpair c c' HR) as [O1 O2].
    destruct (nopad_one C1 e ok1 opt1 space1 eq_refl Hml (cp_enc _ _ _ _ _ Hpair) Hroom1 Hp2 s1 d1 m c N1 He O1 HD Hm) as (xs & sF & dF & E1 & E2 & E3 & E4).
    rewrite E1. split; [exact E2|]. intros m' Em' He'. rewrite E3 in Em'.
    destruct (proc_ok e ok1 (cp_enc _ _ _ _ _ Hpair) c (ms_data m) O1 HD Hm) as (Q1 & Q2 & Q3).
    destruct (nopad_one C2 d ok2 opt2 space2 Es ltac:(rewrite (cp_minlast _ _ _ _ _ Hpair); auto) (cp_dec _ _ _ _ _ Hpair) Hroom2 Hp2 s2 d2 m' c' N2 He' O2 ltac:(rewrite Em'; auto) ltac:(rewrite Em', Q3; auto))
      as (ys & sG & dG & G1 & G2 & G3 & G4).
    rewrite G1. destruct (cp_inv _ _ _ _ _ Hpair c c' (ms_data m) HR HD Hm) as [V1 V2]. rewrite Em' in *. rewrite V1 in G3.
    split; [exact G2|]. split; [exact G3|]. eapply IH; eauto.
  Qed.
  (** NO_PADDING: a message that is not a whole number of blocks is refused, in both directions. *)
  Theorem C28_no_padding_refuses : forall C (o : stream C) ok opt space m c, so_s o = sz -> stream_ok o ok -> room o ok opt space ->
    pad = NO_PADDING -> so_minlast o = 0 -> ms_end m <> 0%Z -> ok c -> bytes (ms_data m) -> length (ms_data m) mod sz <> 0 ->
    exists xs st, filter_run (sf_handler o pad opt space) (sf_new o pad, c) (ms_ops m) = (xs, st) /\ ended xs Throws.
  Proof.
    intros C o ok opt space m c Es Ok Hr Hp Hml He Hc HD Hm. assert (Hso : so_s o <> 0) by (rewrite Es; auto).
    assert (B : last_block_size o pad = 0). { unfold last_block_size. rewrite Hml, Hp. cbn [Nat.ltb Nat.leb]. rewrite andb_false_r. reflexivity. }
    assert (N : frep 0 (so_s o) 0 (sf_new o pad) (false, [])) by (unfold sf_new; rewrite B; apply new_frep; auto).
    set (k := length (ms_data m) - tail_length (so_s o) 0 (length (ms_data m))).
    assert (Lt : length (skipn k (ms_data m)) <> 0).
    { rewrite skipn_length. unfold k. rewrite tail0, Es by auto. pose proof (Nat.mod_le (length (ms_data m)) sz Hs). lia. }
    destruct (sf_message o ok pad opt space Ok Hr Hso 0 _ _ m c (fst (so_process o c (firstn k (ms_data m)))) [] Throws N He Hc HD) as (xs & sF & dF & F1 & F2 & _).
    { fold k. unfold sf_last. rewrite Hp. rewrite (proj2 (Nat.eqb_neq _ 0) Lt). rewrite andb_false_r. cbn [andb]. rewrite Hml. reflexivity. }
    exists xs, (sF, fst (so_process o c (firstn k (ms_data m)))). auto.
  Qed.
  (** C28: ZEROS_PADDING: the message comes back followed by the zeros that complete its last block. *)
  Definition zero_filled (D : list Z) : list Z := D ++ repeat 0%Z ((sz - length D mod sz) mod sz).
  Lemma zero_filled_length : forall D, length (zero_filled D) mod sz = 0.
  Proof.
    intros D. unfold zero_filled. rewrite app_length, repeat_length. rewrite Nat.add_mod_idemp_r by auto.
    pose proof (Nat.mod_upper_bound (length D) sz Hs). pose proof (Nat.div_mod (length D) sz Hs).
    replace (length D + (sz - length D mod sz)) with ((length D / sz + 1) * sz) by (rewrite Nat.mul_add_distr_r, (Nat.mul_comm (length D / sz)); lia). apply Nat.mod_mul; auto.
  Qed.
  Theorem C28_zeros_round_trip : forall ms c c', pad = ZEROS_PADDING -> so_minlast e = 0 -> so_last e = default_last sz (so_process e) -> R c c' ->
    Forall (fun m => ms_end m <> 0%Z /\ bytes (ms_data m)) ms ->
    sessions h1 h2 zero_filled (sf_new e pad, c) (sf_new d pad, c') ms.
  Proof.
    intros ms c c' Hp Hml Hlast HR HF. pose proof (cp_s _ _ _ _ _ Hpair) as Es.
    assert (Hp2 : is_padding pad = false) by (rewrite Hp; reflexivity).
    destruct (lbs_plain Hml Hp2) as [B1 B2].
    assert (N1 : frep 0 sz 0 (sf_new e pad) (false, [])) by (unfold sf_new; rewrite B1; apply new_frep; auto).
    assert (N2 : frep 0 sz 0 (sf_new d pad) (false, [])) by (unfold sf_new; rewrite B2, Es; apply new_frep; auto).
    revert N1 N2 HR. generalize false at 2. intros d2. generalize false. intros d1. generalize (sf_new e pad) as s1, (sf_new d pad) as s2.
    intros s1 s2. revert s1 s2 d1 d2 c c'. induction HF as [|m ms (He & HD) HF IH]; intros s1 s2 d1 d2 c c' N1 N2 HR; cbn [sessions]; [exact I|].
    destruct (cp_rel _ _ _ _ _ Hpair c c' HR) as [O1 O2]. pose proof (cp_enc _ _ _ _ _ Hpair) as Ok.
    set (D := ms_data m) in *. pose proof (zero_filled_length D) as ZL.
    assert (ZB : bytes (zero_filled D)) by (apply bytes_app; split; auto; apply Forall_repeat; unfold byte; lia).
    assert (A : exists xs sF dF, filter_run h1 (s1, c) (ms_ops m) = (xs, (sF, fst (so_process e c (zero_filled D)))) /\ ended xs Returns /\
                all_bytes xs = snd (so_process e c (zero_filled D)) /\ frep 0 sz 0 sF (dF, [])).
    { destruct (Nat.eq_dec (length D mod sz) 0) as [E0|E0].
      - assert (EZ : zero_filled D = D). { unfold zero_filled. rewrite E0, Nat.sub_0_r, Nat.mod_same by auto. apply app_nil_r. }
        rewrite EZ. apply (nopad_one C1 e ok1 opt1 space1 eq_refl Hml Ok Hroom1 Hp2 s1 d1 m c N1 He O1 HD E0).
      - set (k := length D - tail_length sz 0 (length D)).
        pose proof (tail0 sz (length D) Hs) as T0. pose proof (Nat.mod_upper_bound (length D) sz Hs) as T1. pose proof (Nat.mod_le (length D) sz Hs) as T2.
        assert (Lt : length (skipn k D) = length D mod sz) by (rewrite skipn_length; unfold k; lia).
        set (z := repeat 0%Z (sz - length D mod sz)).
        assert (EZ : zero_filled D = firstn k D ++ (skipn k D ++ z)).
        { unfold zero_filled, z. rewrite (Nat.mod_small (sz - length D mod sz)) by lia. rewrite app_assoc, firstn_skipn. reflexivity. }
        assert (Lz : length (skipn k D ++ z) = sz) by (unfold z; rewrite app_length, repeat_length; lia).
        assert (BZ : bytes (skipn k D ++ z)) by (apply bytes_app; split; [apply bytes_skipn; auto|apply Forall_repeat; unfold byte; lia]).
        assert (Hk : length (firstn k D) mod sz = 0).
        { rewrite firstn_length. rewrite Nat.min_l by (unfold k; lia). unfold k. rewrite tail_release by auto. apply release_le; auto. }
        destruct (proc_app e ok1 Ok c (firstn k D) (skipn k D ++ z) O1 (bytes_firstn k D HD) BZ Hk) as [A1 A2]; [rewrite Lz; apply Nat.mod_same; auto|].
        rewrite <- EZ in A1, A2.
        destruct (sf_message e ok1 pad opt1 space1 Ok Hroom1 Hs 0 s1 d1 m c (fst (so_process e c (zero_filled D))) [OPut (snd (so_process e (fst (so_process e c (firstn k D))) (skipn k D ++ z)))] Returns) as (xs & sF & dF & F1 & F2 & F3 & F4); auto.
        { fold D k. unfold sf_last. rewrite Hp. rewrite Lt. rewrite (proj2 (Nat.eqb_neq _ 0) E0). rewrite (proj1 (cp_fwd _ _ _ _ _ Hpair)), Hml. cbn [Nat.eqb andb orb].
          replace (Nat.max 0 sz - length D mod sz) with (sz - length D mod sz) by lia. fold z. rewrite Hlast. unfold default_last. rewrite Lz, Nat.eqb_refl, A1.
          destruct (so_process e (fst (so_process e c (firstn k D))) (skipn k D ++ z)) as [c2 o2]. reflexivity. }
        exists xs, sF, dF. split; [exact F1|]. split; [exact F2|]. split; [|exact F4]. rewrite F3, A2. cbn [obytes]. rewrite app_nil_r. reflexivity. }
    destruct A as (xs & sF & dF & E1 & E2 & E3 & E4).
    rewrite E1. split; [exact E2|]. intros m' Em' He'. rewrite E3 in Em'.
    destruct (proc_ok e ok1 Ok c (zero_filled D) O1 ZB ZL) as (Q1 & Q2 & Q3).
    destruct (nopad_one C2 d ok2 opt2 space2 Es ltac:(rewrite (cp_minlast _ _ _ _ _ Hpair); auto) (cp_dec _ _ _ _ _ Hpair) Hroom2 Hp2 s2 d2 m' c' N2 He' O2 ltac:(rewrite Em'; auto) ltac:(rewrite Em', Q3; auto))
      as (ys & sG & dG & G1 & G2 & G3 & G4).
    rewrite G1. destruct (cp_inv _ _ _ _ _ Hpair c c' (zero_filled D) HR ZB ZL) as [V1 V2]. rewrite Em' in *. rewrite V1 in G3.
    split; [exact G2|]. split; [exact G3|]. eapply IH; eauto.
  Qed.
  (** C28: a mode with a special last block (ciphertext stealing), no padding: any message of at least
      MinLastBlockSize bytes; the ciphertext is as long as the message. *)
  Theorem C28_special_last_round_trip : forall m c c', pad = NO_PADDING -> 0 < so_minlast e -> last_pair e d R -> R c c' ->
    ms_end m <> 0%Z -> bytes (ms_data m) -> so_minlast e <= length (ms_data m) ->
    exists xs st, filter_run h1 (sf_new e pad, c) (ms_ops m) = (xs, st) /\ ended xs Returns /\ length (all_bytes xs) = length (ms_data m) /\
      forall m', ms_data m' = all_bytes xs -> ms_end m' <> 0%Z ->
        exists ys st', filter_run h2 (sf_new d pad, c') (ms_ops m') = (ys, st') /\ ended ys Returns /\ all_bytes ys = ms_data m.
  Proof.
    intros m c c' Hp Hml HL HR He HD Hlen. pose proof (cp_s _ _ _ _ _ Hpair) as Es. pose proof (cp_minlast _ _ _ _ _ Hpair) as Em.
    destruct (cp_rel _ _ _ _ _ Hpair c c' HR) as [O1 O2]. pose proof (cp_enc _ _ _ _ _ Hpair) as Ok1. pose proof (cp_dec _ _ _ _ _ Hpair) as Ok2.
    set (ml := so_minlast e) in *. set (D := ms_data m) in *.
    assert (B1 : last_block_size e pad = ml /\ last_block_size d pad = ml).
    { unfold last_block_size. rewrite Em. fold ml. destruct (Nat.ltb_spec 0 ml); [auto|lia]. }
    assert (N1 : frep 0 sz ml (sf_new e pad) (false, [])) by (unfold sf_new; rewrite (proj1 B1); apply new_frep; auto).
    assert (N2 : frep 0 sz ml (sf_new d pad) (false, [])) by (unfold sf_new; rewrite (proj2 B1), Es; apply new_frep; auto).
    assert (Hsd : so_s d <> 0) by (rewrite Es; auto).
    set (k := length D - tail_length sz ml (length D)).
    pose proof (tail_release sz ml Hs (length D)) as TR. fold k in TR. destruct (release_le sz ml (length D) Hs) as (K1 & K2 & K3). rewrite <- TR in K1, K2, K3.
    assert (K4 : ml <= length D - k). { destruct (release_room sz ml (length D) Hs) as [Z0|Z0]; lia. }
    assert (Lt : length (skipn k D) = length D - k) by apply skipn_length.
    assert (Lf : length (firstn k D) = k) by (rewrite firstn_length; lia).
    destruct (cp_inv _ _ _ _ _ Hpair c c' (firstn k D) HR (bytes_firstn k D HD) ltac:(rewrite Lf; auto)) as [V1 V2].
    destruct (proc_ok e ok1 Ok1 c (firstn k D) O1 (bytes_firstn k D HD) ltac:(rewrite Lf; auto)) as (Q1 & Q2 & Q3).
    set (x1 := snd (so_process e c (firstn k D))) in *.
    destruct (HL _ _ (skipn k D) V2 (bytes_skipn k D HD) ltac:(lia) ltac:(lia)) as (c1 & o1 & c2 & L1 & L2 & L3 & L4).
    destruct (sf_message e ok1 pad opt1 space1 Ok1 Hroom1 Hs ml _ _ m c c1 [OPut o1] Returns N1 He O1 HD) as (xs & sF & dF & F1 & F2 & F3 & F4).
    { fold D k. unfold sf_last. rewrite Hp. destruct (Nat.eqb_spec (length (skipn k D)) 0); [lia|]. rewrite andb_false_r. cbn [andb]. fold ml.
      destruct (Nat.eqb_spec ml 0); [lia|]. rewrite L1. reflexivity. }
    fold D k in F3. fold x1 in F3. cbn [obytes] in F3. rewrite app_nil_r in F3.
    exists xs, (sF, c1). split; [exact F1|]. split; [exact F2|]. split; [rewrite F3, app_length; lia|].
    intros m' Em' He'. rewrite F3 in Em'.
    assert (BX : bytes (ms_data m')) by (rewrite Em'; apply bytes_app; auto).
    assert (LX : length (ms_data m') = length D) by (rewrite Em', app_length; lia).
    destruct (sf_message d ok2 pad opt2 space2 Ok2 Hroom2 Hsd ml _ _ m' c' c2 [OPut (skipn k D)] Returns ltac:(rewrite Es; exact N2) He' O2 BX) as (ys & sG & dG & G1 & G2 & G3 & G4).
    { rewrite Es, LX. fold k. rewrite Em'. rewrite firstn_app_ge, skipn_app_ge by lia. replace (k - length x1) with 0 by lia. cbn [firstn skipn]. rewrite app_nil_r.
      unfold sf_last. rewrite Hp. destruct (Nat.eqb_spec (length o1) 0); [lia|]. rewrite andb_false_r. cbn [andb]. rewrite Em. fold ml.
      destruct (Nat.eqb_spec ml 0); [lia|]. rewrite L4. reflexivity. }
    exists ys, (sG, c2). split; [exact G1|]. split; [exact G2|]. rewrite G3, Es, LX. fold k. rewrite Em'. rewrite firstn_app_ge by lia.
    replace (k - length x1) with 0 by lia. cbn [firstn obytes]. rewrite !app_nil_r, V1. apply firstn_skipn.
  Qed.
End Filters.

(* -------------------------------------------------------------------- C30 *)

Lemma ended_inj : forall xs r r', ended xs r -> ended xs r' -> r = r'.
Proof. intros xs r r' (ys & o & -> & _) (ys' & o' & E & _). apply app_inj_tail in E. destruct E as [_ E]. congruence. Qed.
(** HashFilter's calls for one message. *)
Definition hash_calls (m : message) : list (list Z * Z) := map (fun p => (fst p, 0%Z)) (ms_ds m) ++ [(fst (ms_last m), ms_end m)].

Section HashFiltersProofs.
  Context {T : Type} (o : hobj T) (rep : T -> list Z -> Prop) (hash : list Z -> list Z) (ok : list Z -> Prop).
  Hypothesis Himp : implements o rep hash ok.
  Hypothesis Hbytes : forall m, bytes (hash m).
  Variables (fl : hvflags) (n : nat).
  Hypothesis Hn : n <= ho_dsize o.
  Notation h := (hv_handler o fl n).

  Lemma hv_mids : forall es mids t m, map fst es = mids -> Forall (mid_ok 1) mids -> rep (hv_s t) m -> ok (m ++ concat (map edata mids)) ->
    exists s' ob x, exec h t es = (mkHV s' (hv_expected t) (hv_verified t), ob, Returns, x) /\ rep s' (m ++ concat (map edata mids)) /\
      obytes ob = opt (put_message fl) (concat (map edata mids)).
  Proof.
    induction es as [|[e s] es IH]; intros mids t m <- Hm Hr Ho.
    - cbn [map concat exec]. rewrite app_nil_r. destruct t. exists hv_s, [], None. unfold opt. destruct (put_message fl); auto.
    - cbn [map concat fst] in *. inversion Hm as [|? ? (mo & d & E & Hd & Hl) Hr']; subst. cbn [edata] in *. rewrite app_assoc in Ho.
      destruct (imp_update _ _ _ _ Himp (hv_s t) m d Hr (imp_prefix _ _ _ _ Himp _ _ Ho)) as (s1 & U1 & U2).
      destruct (IH _ (mkHV s1 (hv_expected t) (hv_verified t)) (m ++ d) eq_refl Hr' U2 Ho) as (s' & ob & x & I1 & I2 & I3). cbn [hv_expected hv_verified] in I1.
      cbn [exec hv_handler]. rewrite U1, I1. do 3 eexists. split; [reflexivity|]. rewrite <- app_assoc in I2. split; [exact I2|].
      rewrite obytes_app, I3. unfold opt. destruct (put_message fl); cbn [obytes]; [rewrite app_nil_r|]; reflexivity.
  Qed.
  Lemma verify_one : forall s d, rep s d -> forall tag, bytes tag -> length tag = n -> exists s' v, hv_verify o s tag n = (Some (s', v), Returns) /\ rep s' [] /\
    (v = true <-> tag = firstn n (hash d)).
  Proof.
    intros s d Hr tag Ht Hl. destruct (C18_truncated_verify _ o rep hash ok s d tag n Himp Hr (Hbytes d) Ht ltac:(lia)) as [(V0 & s' & v & V1 & V2 & V3)|(V0 & _)]; [|lia].
    exists s', v. unfold hv_verify. rewrite V1. destruct (Nat.ltb_spec (length tag) n); [lia|]. split; auto. split; auto. rewrite V3. rewrite <- Hl, firstn_all. tauto.
  Qed.
  Lemma tail1 : forall N, N - tail_length 1 n N = N - n.
  Proof. intros N. unfold tail_length. destruct (Nat.leb_spec N n); [lia|]. rewrite Nat.mod_1_r. lia. Qed.
  (** What verifying does, given the verdict. *)
  Lemma judge : forall good (v : bool) xs r, (v = true <-> good) -> ended xs r -> r = (if throw_exception fl && negb v then Throws else Returns) -> judged fl good xs v.
  Proof.
    intros good v xs r Hv He ->. unfold judged. destruct v; cbn [negb] in He; [rewrite andb_false_r in He; left; intuition|right].
    rewrite andb_true_r in He. split; [intros G; apply Hv in G; discriminate|]. split; auto.
  Qed.

  (** C30: the digest at the end, for any history of messages. *)
  Lemma at_end_one : forall s t d0 m, at_begin fl = false -> frep 0 1 n s (d0, []) -> ms_end m <> 0%Z -> bytes (ms_data m) ->
    rep (hv_s t) [] -> ok (firstn (length (ms_data m) - n) (ms_data m)) ->
    exists xs sF tF dF, filter_run h (s, t) (ms_ops m) = (xs, (sF, tF)) /\ at_end_spec fl n hash m xs (hv_verified tF) /\ frep 0 1 n sF (dF, []) /\ rep (hv_s tF) [].
  Proof.
    intros s t d0 m Hfl Hf He HD Hr Hok. set (D := ms_data m) in *. set (k := length D - n).
    assert (Hb1 : 1 <> 0) by lia.
    destruct (message_exec_rel h 0 1 n Hb1 s d0 m t (fun t1 ob => rep (hv_s t1) (firstn k D) /\ ob = opt (put_message fl) (firstn k D))
      (fun tL rL ob => rep (hv_s tL) [] /\ (hv_verified tL = true <-> (n <= length D /\ skipn k D = firstn n (hash (firstn k D)))) /\
          rL = (if throw_exception fl && negb (hv_verified tL) then Throws else Returns) /\
          ob = opt (put_message fl) (firstn k D) ++ opt (put_hash fl) (skipn k D) ++ opt (put_result fl) [if hv_verified tL then 1%Z else 0%Z]))
      as (xs & sF & dF & tL & rL & F1 & F2 & (Q1 & Q2 & Q3 & Q4) & F4 & _); auto.
    - lia.
    - fold D. cbn [skipn]. rewrite tail1. fold k. intros _ es mids E1 E2 E3.
      assert (A : exists s1 ex v ob x es', (exec h t es = (mkHV s1 ex v, ob, Returns, x)) /\ rep s1 (firstn k D) /\ obytes ob = opt (put_message fl) (firstn k D) /\ es' = es).
      { destruct d0.
        - destruct (hv_mids es mids t [] E1 E2 Hr) as (s' & ob & x & M1 & M2 & M3); [rewrite E3; exact Hok|]. rewrite E3 in *. exists s', (hv_expected t), (hv_verified t), ob, x, es. auto.
        - destruct es as [|[e1 s1] es]; [discriminate|]. cbn [map app fst] in E1. inversion E1; subst e1.
          destruct (hv_mids es mids t [] ltac:(assumption) E2 Hr) as (s' & ob & x & M1 & M2 & M3); [rewrite E3; exact Hok|]. rewrite E3 in *.
          cbn [exec hv_handler]. rewrite Hfl, M1. do 6 eexists. split; [reflexivity|]. split; [exact M2|]. split; [|reflexivity]. cbn [app]. exact M3. }
      destruct A as (s1 & ex & v & ob & x & _ & A1 & A2 & A3 & _). exists (mkHV s1 ex v), ob, x. auto.
    - fold D. cbn [Nat.ltb Nat.leb skipn]. rewrite tail1. fold k. intros t1 o1 [P1 ->]. cbn [hv_handler]. unfold hv_last. rewrite Hfl.
      assert (Lk : length (skipn k D) = length D - k) by apply skipn_length.
      destruct (Nat.eqb_spec (length (skipn k D)) n) as [El|El].
      + destruct (verify_one _ _ P1 (skipn k D) (bytes_skipn k D HD) El) as (s' & v & V1 & V2 & V3). rewrite El, V1.
        do 3 eexists. split; [reflexivity|]. cbn [hv_s hv_verified]. split; [auto|]. split; [exact V2|]. split; [rewrite V3; split; [intros G; split; [lia|exact G]|tauto]|]. split; [reflexivity|].
        rewrite obytes_app. unfold opt. destruct (put_hash fl), (put_result fl); cbn [obytes]; rewrite ?app_nil_r; reflexivity.
      + do 3 eexists. split; [reflexivity|]. cbn [hv_s hv_verified]. split; [auto|]. assert (k = 0) by (unfold k in *; lia).
        replace (firstn k D) with (@nil Z) in P1 by (replace k with 0 by lia; reflexivity). split; [exact P1|].
        split; [split; [discriminate|intros [A _]; unfold k in *; lia]|]. split; [reflexivity|].
        rewrite obytes_app. unfold opt. destruct (put_hash fl), (put_result fl); cbn [obytes]; rewrite ?app_nil_r; reflexivity.
    - exists xs, sF, tL, dF. split; [exact F1|]. split; [|auto]. unfold at_end_spec. fold D k. split; [eapply judge; eauto|exact Q4].
  Qed.
  Theorem C30_at_end : forall ms s0 expected verified, at_begin fl = false -> rep s0 [] ->
    Forall (fun m => ms_end m <> 0%Z /\ bytes (ms_data m) /\ ok (firstn (length (ms_data m) - n) (ms_data m))) ms ->
    verifies h false (at_end_spec fl n hash) (hv_new fl n, mkHV s0 expected verified) ms.
  Proof.
    intros ms s0 ex ve Hfl Hr HF.
    assert (N : frep 0 1 n (hv_new fl n) (false, [])) by (unfold hv_new; rewrite Hfl; apply new_frep; auto).
    assert (Hr' : rep (hv_s (mkHV s0 ex ve)) []) by exact Hr.
    revert N Hr'. generalize (mkHV s0 ex ve). generalize (hv_new fl n). generalize false at 1. clear Hr.
    induction HF as [|m ms (He & HD & Ho) HF IH]; intros d0 s t N Hr; cbn [verifies]; [exact I|].
    destruct (at_end_one s t d0 m Hfl N He HD Hr Ho) as (xs & sF & tF & dF & E1 & E2 & E3 & E4). rewrite E1. cbn [snd]. split; [exact E2|].
    intros _. eapply IH; eauto.
  Qed.

  (** The digest at the beginning, for streams that hold a whole digest, up to the first exception. *)
  Lemma at_begin_one : forall s t m, at_begin fl = true -> frep n 1 0 s (false, []) -> ms_end m <> 0%Z -> bytes (ms_data m) -> n <= length (ms_data m) ->
    rep (hv_s t) [] -> ok (skipn n (ms_data m)) ->
    exists xs sF tF, filter_run h (s, t) (ms_ops m) = (xs, (sF, tF)) /\ at_begin_spec fl n hash m xs (hv_verified tF) /\
      (ended xs Returns -> frep n 1 0 sF (false, [])) /\ rep (hv_s tF) [].
  Proof.
    intros s t m Hfl Hf He HD Hlen Hr Hok. set (D := ms_data m) in *.
    assert (Hb1 : 1 <> 0) by lia.
    assert (T0 : forall N, N - tail_length 1 0 N = N) by (intros N; rewrite tail0, Nat.mod_1_r by auto; lia).
    assert (Lf : length (firstn n D) = n) by (rewrite firstn_length; lia).
    destruct (message_exec_rel h n 1 0 Hb1 s false m t
      (fun t1 ob => rep (hv_s t1) (skipn n D) /\ hv_expected t1 = firstn n D /\ ob = opt (put_hash fl) (firstn n D) ++ opt (put_message fl) (skipn n D))
      (fun tL rL ob => rep (hv_s tL) [] /\ (hv_verified tL = true <-> firstn n D = firstn n (hash (skipn n D))) /\
          rL = (if throw_exception fl && negb (hv_verified tL) then Throws else Returns) /\
          ob = opt (put_hash fl) (firstn n D) ++ opt (put_message fl) (skipn n D) ++ opt (put_result fl) [if hv_verified tL then 1%Z else 0%Z]))
      as (xs & sF & dF & tL & rL & F1 & F2 & (Q1 & Q2 & Q3 & Q4) & F4 & F5 & _); auto.
    - discriminate.
    - fold D. lia.
    - fold D. rewrite T0. intros _ es mids E1 E2 E3. rewrite firstn_all in E3. cbn [app] in E1.
      destruct es as [|[e1 s1] es]; [discriminate|]. cbn [map app fst] in E1. inversion E1; subst e1.
      destruct (hv_mids es mids (mkHV (hv_s t) (firstn n D) (hv_verified t)) [] ltac:(assumption) E2 Hr) as (s' & ob & x & M1 & M2 & M3); [rewrite E3; exact Hok|]. rewrite E3 in *.
      cbn [exec hv_handler]. rewrite Hfl, M1. do 3 eexists. split; [reflexivity|]. cbn [hv_s hv_expected]. split; [exact M2|]. split; [reflexivity|].
      rewrite obytes_app, M3. f_equal. unfold opt. destruct (put_hash fl); cbn [obytes]; rewrite ?app_nil_r; reflexivity.
    - fold D. rewrite T0, skipn_all. destruct (Nat.ltb_spec (length D) n); [lia|]. intros t1 o1 (P1 & P2 & ->). cbn [hv_handler]. unfold hv_last. rewrite Hfl, P2.
      destruct (verify_one _ _ P1 (firstn n D) (bytes_firstn n D HD) Lf) as (s' & v & V1 & V2 & V3). rewrite V1.
      do 3 eexists. split; [reflexivity|]. cbn [hv_s hv_verified]. split; [auto|]. split; [exact V2|]. split; [exact V3|]. split; [reflexivity|].
      unfold opt. destruct (put_result fl); cbn [obytes app]; rewrite ?app_nil_r, <- ?app_assoc; reflexivity.
    - exists xs, sF, tL. split; [exact F1|]. split; [|split; [|exact Q1]].
      + unfold at_begin_spec. fold D. split; [eapply judge; eauto|exact Q4].
      + intros E. rewrite <- (F5 (ended_inj _ _ _ F2 E)). exact F4.
  Qed.
  Theorem C30_at_begin : forall ms s0 expected verified, at_begin fl = true -> rep s0 [] ->
    Forall (fun m => ms_end m <> 0%Z /\ bytes (ms_data m) /\ n <= length (ms_data m) /\ ok (skipn n (ms_data m))) ms ->
    verifies h true (at_begin_spec fl n hash) (hv_new fl n, mkHV s0 expected verified) ms.
  Proof.
    intros ms s0 ex ve Hfl Hr HF.
    assert (N : frep n 1 0 (hv_new fl n) (false, [])) by (unfold hv_new; rewrite Hfl; apply new_frep; auto).
    assert (Hr' : rep (hv_s (mkHV s0 ex ve)) []) by exact Hr.
    revert N Hr'. generalize (mkHV s0 ex ve). generalize (hv_new fl n). clear Hr.
    induction HF as [|m ms (He & HD & Hl & Ho) HF IH]; intros s t N Hr; cbn [verifies]; [exact I|].
    destruct (at_begin_one s t m Hfl N He HD Hl Hr Ho) as (xs & sF & tF & E1 & E2 & E3 & E4). rewrite E1. cbn [snd]. split; [exact E2|].
    intros Hs. eapply IH; eauto.
  Qed.

  (** HashFilter appends the digest, whatever the split, and starts again. *)
  Lemma hf_pieces : forall pm ds s m rest, rep s m -> ok (m ++ concat (map fst ds)) ->
    exists s' o1, rep s' (m ++ concat (map fst ds)) /\ obytes o1 = opt pm (concat (map fst ds)) /\
      hf_run o pm n s (map (fun p : list Z * bool => (fst p, 0%Z)) ds ++ rest) = let '(s2, o2, r2) := hf_run o pm n s' rest in (s2, o1 ++ o2, r2).
  Proof.
    induction ds as [|[d mo] ds IH]; intros s m rest Hr Ho; cbn [map concat fst app] in *.
    - exists s, []. rewrite app_nil_r. split; auto. split; [unfold opt; destruct pm; reflexivity|]. destruct (hf_run o pm n s rest) as [[s2 o2] r2]. reflexivity.
    - rewrite app_assoc in Ho. destruct (imp_update _ _ _ _ Himp s m d Hr (imp_prefix _ _ _ _ Himp _ _ Ho)) as (s1 & U1 & U2).
      assert (A : exists s1', (if length d =? 0 then Some s else ho_update o s d) = Some s1' /\ rep s1' (m ++ d)).
      { destruct (Nat.eqb_spec (length d) 0) as [E|E]; [|eauto]. destruct d; [|discriminate]. rewrite app_nil_r. eauto. }
      destruct A as (s1' & A1 & A2). destruct (IH s1' (m ++ d) rest A2 Ho) as (s' & o1 & I1 & I2 & I3).
      exists s', ((if pm then [OPut d] else []) ++ o1). rewrite <- app_assoc in I1. split; [exact I1|]. split.
      + rewrite obytes_app, I2. unfold opt. destruct pm; cbn [obytes]; rewrite ?app_nil_r; reflexivity.
      + cbn [hf_run]. unfold hf_put. rewrite A1. cbn [Z.eqb]. rewrite I3. destruct (hf_run o pm n s' rest) as [[s2 o2] r2]. rewrite app_assoc. reflexivity.
  Qed.
  Theorem C30_hash_filter : forall pm m s, rep s [] -> ms_end m <> 0%Z -> ok (ms_data m) ->
    exists s' outs, hf_run o pm n s (hash_calls m) = (s', outs, Returns) /\ rep s' [] /\ obytes outs = opt pm (ms_data m) ++ firstn n (hash (ms_data m)).
  Proof.
    intros pm m s Hr He Ho. unfold hash_calls, ms_data, message_data in *.
    destruct (hf_pieces pm (ms_ds m) s [] [(fst (ms_last m), ms_end m)] Hr (imp_prefix _ _ _ _ Himp _ _ Ho)) as (s1 & o1 & P1 & P2 & P3). rewrite P3. clear P3.
    cbn [app] in P1. destruct (imp_update _ _ _ _ Himp s1 _ (fst (ms_last m)) P1 Ho) as (s2 & U1 & U2).
    assert (A : exists s2', (if length (fst (ms_last m)) =? 0 then Some s1 else ho_update o s1 (fst (ms_last m))) = Some s2' /\ rep s2' (concat (map fst (ms_ds m)) ++ fst (ms_last m))).
    { destruct (Nat.eqb_spec (length (fst (ms_last m))) 0) as [E|E]; [|eauto]. destruct (fst (ms_last m)); [|discriminate]. rewrite app_nil_r. eauto. }
    destruct A as (s2' & A1 & A2). cbn [hf_run]. unfold hf_put. rewrite A1. destruct (Z.eqb_spec (ms_end m) 0); [contradiction|].
    destruct (Nat.ltb_spec (ho_dsize o) n); [lia|]. destruct (imp_final _ _ _ _ Himp s2' _ n A2 Hn) as [G1 G2]. destruct (ho_final o s2' n) as [s3 dig]. cbn [fst snd] in G1, G2.
    do 2 eexists. split; [reflexivity|]. split; [exact G1|]. rewrite app_nil_r, !obytes_app, P2. cbn [obytes]. rewrite app_nil_r, G2. unfold opt.
    destruct pm; cbn [obytes app]; rewrite ?app_nil_r, <- ?app_assoc; reflexivity.
  Qed.
End HashFiltersProofs.

(** What HashFilter produces, HashVerificationFilter accepts, in any split and after any history of messages. *)
Theorem C30_hash_then_verify : forall T (o : hobj T) rep hash ok fl n before m m' s s0 expected verified, implements o rep hash ok -> (forall x, bytes (hash x)) ->
  n <= ho_dsize o -> at_begin fl = false -> rep s [] -> rep s0 [] -> ms_end m <> 0%Z -> ms_end m' <> 0%Z -> ok (ms_data m) -> bytes (ms_data m) ->
  Forall (fun m => ms_end m <> 0%Z /\ bytes (ms_data m) /\ ok (firstn (length (ms_data m) - n) (ms_data m))) before ->
  ms_data m' = obytes (snd (fst (hf_run o true n s (hash_calls m)))) ->
  let '(xs0, st) := filter_run (hv_handler o fl n) (hv_new fl n, mkHV s0 expected verified) (concat (map ms_ops before)) in
  let '(xs, st') := filter_run (hv_handler o fl n) st (ms_ops m') in
  ended xs Returns /\ hv_verified (snd st') = true.
Proof.
  intros T o rep hash ok fl n before m m' s s0 ex ve Himp Hby Hn Hfl Hr Hr0 He He' Ho HD HF Em'.
  destruct (C30_hash_filter o rep hash ok Himp n Hn true m s Hr He Ho) as (s' & outs & E1 & _ & E2). rewrite E1 in Em'. cbn [fst snd] in Em'. rewrite E2 in Em'. clear E1 E2.
  unfold opt in Em'. assert (N : frep 0 1 n (hv_new fl n) (false, [])) by (unfold hv_new; rewrite Hfl; apply new_frep; auto).
  assert (Hr' : rep (hv_s (mkHV s0 ex ve)) []) by exact Hr0.
  revert N Hr'. generalize (mkHV s0 ex ve). generalize (hv_new fl n). generalize false at 1.
  induction HF as [|b bs (Hb1 & Hb2 & Hb3) HF IH]; intros d0 q t N Hr'; cbn [map concat].
  - cbn [filter_run].
    assert (Lm : length (firstn n (hash (ms_data m))) = n) by (rewrite firstn_length, (imp_length _ _ _ _ Himp); lia).
    assert (Ek : length (ms_data m') - n = length (ms_data m)) by (rewrite Em', app_length; lia).
    assert (Ef : firstn (length (ms_data m)) (ms_data m') = ms_data m) by (rewrite Em'; rewrite firstn_app_le, firstn_all by lia; reflexivity).
    assert (Eg : skipn (length (ms_data m)) (ms_data m') = firstn n (hash (ms_data m))) by (rewrite Em', skipn_app_ge, Nat.sub_diag by lia; reflexivity).
    destruct (at_end_one o rep hash ok Himp Hby fl n Hn q t d0 m' Hfl N He') as (xs & sF & tF & dF & F1 & (F2 & _) & _); auto.
    { rewrite Em'. apply bytes_app. split; auto. apply bytes_firstn. auto. }
    { rewrite Ek, Ef. exact Ho. }
    rewrite F1. cbn [snd]. rewrite Ek, Ef, Eg in F2. destruct F2 as [(_ & V1 & V2)|(NG & _)]; [auto|]. exfalso. apply NG. split; [rewrite Em', app_length; lia|reflexivity].
  - rewrite filter_run_app. destruct (at_end_one o rep hash ok Himp Hby fl n Hn q t d0 b Hfl N Hb1 Hb2 Hr' Hb3) as (xs & sF & tF & dF & F1 & _ & F3 & F4). rewrite F1.
    specialize (IH dF sF tF F3 F4). destruct (filter_run (hv_handler o fl n) (sF, tF) (concat (map ms_ops bs))) as [xs1 st]. exact IH.
Qed.


(* -------------------------------------------------------------------- C28, C29: the block modes *)

Lemma zero_mem_ok : forall a l, bytes l -> mem_ok (store zero_mem a l).
Proof. intros. apply store_ok; auto. intros x. unfold byte, zero_mem. lia. Qed.
Lemma last_app2 : forall A (a b : list A) d, last (a ++ b) d = last b (last a d).
Proof. induction a as [|x a IH]; intros b d; [reflexivity|]. cbn [app]. rewrite !last_cons. apply IH. Qed.
Section Instances.
  Variables (E D : list Z -> list Z) (bs : nat).
  Hypothesis Hbs : bs <> 0.
  Hypothesis HE : cipher_ok bs E.
  Hypothesis HD : cipher_ok bs D.
  Hypothesis Hinv : inverse bs E D.

  Lemma blocks_mult_length : forall (l : list Z) ps, length l mod bs = 0 -> Forall (block_ok bs) ps -> length ps = length (blocks bs l) -> bytes (concat ps) /\ length (concat ps) = length l.
  Proof.
    intros l ps Hl Hp Hn. split; [eapply bytes_concat; eauto|]. rewrite (length_concat_blocks bs) by (apply ok_lengths; auto). rewrite Hn, blocks_count by auto.
    pose proof (Nat.div_mod (length l) bs Hbs). lia.
  Qed.
  Lemma map_ok : forall F ps, cipher_ok bs F -> Forall (block_ok bs) ps -> Forall (block_ok bs) (map F ps).
  Proof. intros F ps HF H. induction H; constructor; auto. Qed.
  Lemma ecb_proc : forall F fwd c d, cipher_ok bs F -> bytes d -> length d mod bs = 0 -> so_process (ecb_stream F bs fwd) c d = (c, ecb_spec F bs d).
  Proof.
    intros F fwd c d HF Hd Hl. cbn [so_process ecb_stream]. f_equal.
    destruct (ecb_process_spec F bs Hbs HF (store zero_mem 0 d) 0 0 (length d) (zero_mem_ok 0 d Hd) ltac:(left; reflexivity) Hl) as [A _].
    rewrite A, load_store_same by auto. reflexivity.
  Qed.
  Lemma ecb_stream_ok : forall F fwd, cipher_ok bs F -> stream_ok (ecb_stream F bs fwd) (fun _ => True).
  Proof.
    intros F fwd HF. constructor.
    - intros c d _ Hd Hl. cbn [so_s ecb_stream] in Hl. rewrite ecb_proc by auto. unfold ecb_spec. split; auto.
      apply (blocks_mult_length d); auto; [apply map_ok; auto; apply blocks_ok; auto|apply map_length].
    - intros [] _. rewrite ecb_proc by (auto using Nat.mod_0_l; try constructor; apply Nat.mod_0_l; auto). unfold ecb_spec. rewrite blocks_nil by auto. reflexivity.
    - intros c x y _ Hx Hy Lx Ly. cbn [so_s ecb_stream] in Lx, Ly. rewrite !ecb_proc; auto; [|apply bytes_app; auto|rewrite app_length; apply mod_add0; auto].
      unfold ecb_spec. rewrite blocks_app_mult, map_app, concat_app by auto. reflexivity.
  Qed.
  Lemma map_inverse : forall ps, Forall (block_ok bs) ps -> map D (map E ps) = ps.
  Proof. intros ps H. induction H; cbn [map]; [reflexivity|]. rewrite IHForall, Hinv by auto. reflexivity. Qed.
  Theorem C28_ecb_pair : cipher_pair (ecb_stream E bs true) (ecb_stream D bs false) (fun _ => True) (fun _ => True) (fun _ _ => True).
  Proof.
    constructor; try reflexivity; auto using ecb_stream_ok.
    intros c c' x _ Hx Hl. cbn [so_s ecb_stream] in Hl. rewrite (ecb_proc E true) by auto. cbn [snd fst].
    assert (Ok : Forall (block_ok bs) (map E (blocks bs x))) by (apply map_ok; auto; apply blocks_ok; auto).
    destruct (blocks_mult_length x (map E (blocks bs x)) Hl Ok (map_length _ _)) as [B L].
    rewrite ecb_proc; auto; [|unfold ecb_spec; rewrite L; auto]. cbn [snd fst]. split; auto.
    unfold ecb_spec. rewrite blocks_concat by (auto; apply ok_lengths; auto). rewrite map_inverse by (apply blocks_ok; auto). apply concat_blocks; auto.
  Qed.

  Lemma cbc_enc_proc : forall reg d, block_ok bs reg -> bytes d -> length d mod bs = 0 ->
    cbc_enc_process E bs reg d = (last (cbc_enc_blocks E reg (blocks bs d)) reg, cbc_enc_spec E bs reg d).
  Proof.
    intros reg d Hr Hd Hl. unfold cbc_enc_process.
    pose proof (cbc_encrypt_spec E bs Hbs HE (store zero_mem 0 d) reg 0 0 (length d) (zero_mem_ok 0 d Hd) Hr ltac:(left; reflexivity) Hl) as A.
    destruct (cbc_encrypt E bs (store zero_mem 0 d) reg 0 0 (length d)) as [m' reg']. destruct A as (A1 & _ & A2). rewrite A1, A2, !load_store_same by auto. reflexivity.
  Qed.
  Lemma cbc_dec_proc : forall reg d, block_ok bs reg -> bytes d -> length d mod bs = 0 ->
    cbc_dec_process D bs reg d = (last (blocks bs d) reg, cbc_dec_spec D bs reg d).
  Proof.
    intros reg d Hr Hd Hl. unfold cbc_dec_process.
    pose proof (cbc_decrypt_spec D bs Hbs HD (store zero_mem 0 d) reg 0 0 (length d) (zero_mem_ok 0 d Hd) Hr ltac:(left; reflexivity) Hl) as A.
    destruct (cbc_decrypt D bs (store zero_mem 0 d) reg 0 0 (length d)) as [m' reg']. destruct A as (A1 & _ & A2). rewrite A1, A2, !load_store_same by auto. reflexivity.
  Qed.
  Lemma cbc_enc_count : forall ps iv, length (cbc_enc_blocks E iv ps) = length ps.
  Proof. induction ps as [|p ps IH]; intros iv; cbn [cbc_enc_blocks length]; auto. Qed.
  Lemma cbc_dec_count : forall ps iv, length (cbc_dec_blocks D iv ps) = length ps.
  Proof. induction ps as [|p ps IH]; intros iv; cbn [cbc_dec_blocks length]; auto. Qed.
  Lemma cbc_dec_ok : forall ps iv, block_ok bs iv -> Forall (block_ok bs) ps -> Forall (block_ok bs) (cbc_dec_blocks D iv ps).
  Proof. induction ps as [|p ps IH]; intros iv Hi H; constructor; inversion H; subst; auto. apply xorl_block; auto. Qed.
  Lemma cbc_enc_stream_ok : forall ml last, stream_ok (mkSO _ bs ml true (cbc_enc_process E bs) last (fun _ => 0)) (block_ok bs).
  Proof.
    intros ml la. constructor; cbn [so_s so_process].
    - intros c d Hc Hd Hl. rewrite cbc_enc_proc by auto. pose proof (cbc_enc_ok E bs HE _ _ Hc (blocks_ok bs Hbs d Hd)) as Ok.
      split; [apply last_ok; auto|]. unfold cbc_enc_spec. apply (blocks_mult_length d); auto. apply cbc_enc_count.
    - intros c Hc. rewrite cbc_enc_proc by (auto using Nat.mod_0_l; try constructor; apply Nat.mod_0_l; auto). unfold cbc_enc_spec. rewrite blocks_nil by auto. reflexivity.
    - intros c x y Hc Hx Hy Lx Ly.
      assert (Hc1 : block_ok bs (last (cbc_enc_blocks E c (blocks bs x)) c)) by (apply last_ok; auto; apply cbc_enc_ok; auto; apply blocks_ok; auto).
      rewrite cbc_enc_proc; auto; [|apply bytes_app; auto|rewrite app_length; apply mod_add0; auto]. rewrite (cbc_enc_proc c x), cbc_enc_proc by auto.
      unfold cbc_enc_spec. rewrite blocks_app_mult, cbc_enc_app, concat_app by auto. f_equal.
      apply last_app2.
  Qed.
  Lemma cbc_dec_stream_ok : forall ml last, stream_ok (mkSO _ bs ml false (cbc_dec_process D bs) last (fun _ => 0)) (block_ok bs).
  Proof.
    intros ml la. constructor; cbn [so_s so_process].
    - intros c d Hc Hd Hl. rewrite cbc_dec_proc by auto. pose proof (cbc_dec_ok _ _ Hc (blocks_ok bs Hbs d Hd)) as Ok.
      split; [apply last_ok; auto; apply blocks_ok; auto|]. unfold cbc_dec_spec. apply (blocks_mult_length d); auto. apply cbc_dec_count.
    - intros c Hc. rewrite cbc_dec_proc by (auto using Nat.mod_0_l; try constructor; apply Nat.mod_0_l; auto). unfold cbc_dec_spec. rewrite blocks_nil by auto. reflexivity.
    - intros c x y Hc Hx Hy Lx Ly.
      assert (Hc1 : block_ok bs (last (blocks bs x) c)) by (apply last_ok; auto; apply blocks_ok; auto).
      rewrite cbc_dec_proc; auto; [|apply bytes_app; auto|rewrite app_length; apply mod_add0; auto]. rewrite (cbc_dec_proc c x), cbc_dec_proc by auto.
      unfold cbc_dec_spec. rewrite blocks_app_mult, cbc_dec_app, concat_app by auto. f_equal. apply last_app2.
  Qed.
  Lemma cbc_inv_step : forall c c' x, block_ok bs c /\ c' = c -> bytes x -> length x mod bs = 0 ->
    snd (cbc_dec_process D bs c' (snd (cbc_enc_process E bs c x))) = x /\
    (block_ok bs (fst (cbc_enc_process E bs c x)) /\ fst (cbc_dec_process D bs c' (snd (cbc_enc_process E bs c x))) = fst (cbc_enc_process E bs c x)).
  Proof.
    intros c c' x [Hc ->] Hx Hl. rewrite cbc_enc_proc by auto. cbn [snd fst].
    pose proof (cbc_enc_ok E bs HE _ _ Hc (blocks_ok bs Hbs x Hx)) as Ok.
    destruct (blocks_mult_length x _ Hl Ok (cbc_enc_count _ _)) as [B L]. fold (cbc_enc_spec E bs c x) in B, L.
    rewrite cbc_dec_proc by (auto; rewrite L; auto). cbn [snd fst]. unfold cbc_enc_spec, cbc_dec_spec. rewrite blocks_concat by (auto; apply ok_lengths; auto).
    rewrite (cbc_inverse E D bs Hbs HE) by (auto; apply blocks_ok; auto). split; [apply concat_blocks; auto|]. split; auto. apply last_ok; auto.
  Qed.
  Theorem C28_cbc_pair : cipher_pair (cbc_enc_stream E bs) (cbc_dec_stream D bs) (block_ok bs) (block_ok bs) (fun c c' => block_ok bs c /\ c' = c).
  Proof.
    constructor; try reflexivity; auto.
    - apply cbc_enc_stream_ok.
    - apply cbc_dec_stream_ok.
    - intros c c' [H ->]. auto.
    - exact cbc_inv_step.
  Qed.
  Theorem C28_cts_pair : cipher_pair (cts_enc_stream E bs) (cts_dec_stream D bs) (block_ok bs) (block_ok bs) (fun c c' => block_ok bs c /\ c' = c) /\
    last_pair (cts_enc_stream E bs) (cts_dec_stream D bs) (fun c c' => block_ok bs c /\ c' = c).
  Proof.
    split.
    { constructor; try reflexivity; auto.
      - apply cbc_enc_stream_ok.
      - apply cbc_dec_stream_ok.
      - intros c c' [H ->]. auto.
      - exact cbc_inv_step. }
    intros c c' t [Hc ->] Ht H1 H2. cbn [so_minlast so_s cts_enc_stream so_last cts_dec_stream] in *. cbv zeta iota.
    destruct (cts_encrypt_last_spec E bs Hbs HE (store zero_mem 0 t) c None (Z.of_nat (length t)) 0 (length t) (zero_mem_ok 0 t Ht) Hc ltac:(lia) ltac:(lia) ltac:(unfold disjoint; lia)) as (m' & reg' & A1 & A2 & _).
    rewrite A1. rewrite load_store_same in A2 by auto. exists reg', (cts_tail E bs c t), c. rewrite A2.
    assert (Lc : length (cts_tail E bs c t) = length t) by (apply cts_tail_length; auto; lia).
    assert (Bc : bytes (cts_tail E bs c t)).
    { assert (O1 : block_ok bs (E (xorl c (firstn bs t)))) by (apply HE, xorl_block; auto; split; [rewrite firstn_length; lia|apply bytes_firstn; auto]).
      unfold cts_tail. apply bytes_app. split; [|apply bytes_firstn; apply O1].
      apply HE. apply xorl_block; auto. apply zpad_ok; [apply bytes_skipn; auto|rewrite skipn_length; lia]. }
    split; auto. split; auto. split; auto. f_equal. f_equal. rewrite Lc.
    destruct (cts_decrypt_last_spec D bs Hbs HD (store zero_mem 0 (cts_tail E bs c t)) c (Z.of_nat (length t)) 0 (length t) (zero_mem_ok 0 _ Bc) Hc ltac:(lia) ltac:(lia) ltac:(unfold disjoint; lia)) as [B _].
    rewrite B, load_store_same by auto. apply cts_inverse; auto; lia.
  Qed.
End Instances.

(** For example CBC with any cipher, PKCS padding: any messages, any split on both sides, the IV not reset in between. *)
Theorem C28_cbc_padded : forall E D bs pad opt1 opt2 space1 space2 ms iv, 1 < bs < 256 -> cipher_ok bs E -> cipher_ok bs D -> inverse bs E D -> is_padding pad = true ->
  (forall n, bs <= space1 n) -> (forall n, bs <= space2 n) -> bs <= opt1 -> bs <= opt2 -> block_ok bs iv ->
  Forall (fun m => ms_end m <> 0%Z /\ bytes (ms_data m)) ms ->
  sessions (sf_handler (cbc_enc_stream E bs) pad opt1 space1) (sf_handler (cbc_dec_stream D bs) pad opt2 space2) (fun M => M)
    (sf_new (cbc_enc_stream E bs) pad, iv) (sf_new (cbc_dec_stream D bs) pad, iv) ms.
Proof.
  intros E D bs pad opt1 opt2 space1 space2 ms iv [Hb1 Hb2] HE HD Hi Hp S1 S2 O1 O2 Hiv HF.
  eapply (C28_padded_round_trip (cbc_enc_stream E bs) (cbc_dec_stream D bs)) with (R := fun c c' => block_ok bs c /\ c' = c); try eassumption; auto.
  - apply C28_cbc_pair; auto; lia.
  - split; auto. intros. cbn [so_s so_used cbc_enc_stream]. lia.
  - split; auto. intros. cbn [so_s so_used cbc_dec_stream]. lia.
  - cbn [so_s cbc_enc_stream]. lia.
Qed.

(* Concrete cases: the two-byte toy cipher of ModesProperties. *)
Definition msg (pieces : list (list Z)) (l : list Z) : message := mkMsg (map (fun d => (d, false)) pieces) (l, true) 1.
Definition round_trip {C1 C2} (e : stream C1) (d : stream C2) (pad : padding) (c : C1) (c' : C2) (m : message) : list Z * list Z :=
  let '(xs, _) := filter_run (sf_handler e pad 4 (fun n => 2)) (sf_new e pad, c) (ms_ops m) in
  let '(ys, _) := filter_run (sf_handler d pad 2 (fun n => 8)) (sf_new d pad, c') (ms_ops (msg [] (all_bytes xs))) in (all_bytes xs, all_bytes ys).
Example C28_example :
  snd (round_trip (cbc_enc_stream toyE 2) (cbc_dec_stream toyD 2) PKCS_PADDING [1;2]%Z [1;2]%Z (msg [[10;20;30]; []; [40]]%Z [50;60]%Z)) = [10;20;30;40;50;60]%Z /\
  length (fst (round_trip (cbc_enc_stream toyE 2) (cbc_dec_stream toyD 2) PKCS_PADDING [1;2]%Z [1;2]%Z (msg [[10;20;30]; []; [40]]%Z [50;60]%Z))) = 8 /\
  snd (round_trip (ecb_stream toyE 2 true) (ecb_stream toyD 2 false) W3C_PADDING tt tt (msg [[10;20;30]]%Z [50;60]%Z)) = [10;20;30;50;60]%Z /\
  snd (round_trip (ecb_stream toyE 2 true) (ecb_stream toyD 2 false) ZEROS_PADDING tt tt (msg [[10;20;30]]%Z [50;60]%Z)) = [10;20;30;50;60;0]%Z /\
  snd (round_trip (cts_enc_stream toyE 2) (cts_dec_stream toyD 2) NO_PADDING [1;2]%Z [1;2]%Z (msg [[10;20;30]]%Z [50;60]%Z)) = [10;20;30;50;60]%Z.
Proof. vm_compute. auto. Qed.
Example C28_hypotheses : cipher_ok 2 toyE /\ cipher_ok 2 toyD /\ inverse 2 toyE toyD /\ room (cbc_enc_stream toyE 2) (block_ok 2) 4 (fun n => 2).
Proof. split; [exact toyE_ok|]. split; [exact toyD_ok|]. split; [exact toy_inverse|]. split; cbn [so_s so_used cbc_enc_stream]; intros; lia. Qed.
Example C29_example :
  let run X := let '(xs, _) := filter_run (sf_handler (ecb_stream toyD 2 false) PKCS_PADDING 2 (fun n => 8)) (sf_new (ecb_stream toyD 2 false) PKCS_PADDING, tt) (ms_ops (msg [] X)) in
               (all_bytes xs, last (map snd xs) Undefined) in
  let ct p := all_bytes (fst (filter_run (sf_handler (ecb_stream toyE 2 true) NO_PADDING 2 (fun n => 8)) (sf_new (ecb_stream toyE 2 true) NO_PADDING, tt) (ms_ops (msg [] p)))) in
  run (ct [5;6;7;1]%Z) = ([5;6;7]%Z, Returns) /\ run (ct [5;6;2;2]%Z) = ([5;6]%Z, Returns) /\ run (ct [5;6;1;2]%Z) = ([5;6]%Z, Throws) /\
  run (ct [5;6;7;0]%Z) = ([5;6]%Z, Throws) /\ run (ct [5;6;7;3]%Z) = ([5;6]%Z, Throws) /\ run [] = ([], Throws) /\ snd (run [1;2;3]%Z) = Throws.
Proof. vm_compute. auto 10. Qed.
(** ZEROS_PADDING and ciphertext stealing: a message of at most one block is padded and processed in place,
    which ciphertext stealing does not support; what comes back is not the message followed by zeros. *)
Theorem C28_zeros_with_stealing_refuted :
  exists m, ms_end m <> 0%Z /\ bytes (ms_data m) /\ padding_allowed (cts_enc_stream toyE 2) ZEROS_PADDING = true /\
    forall k, snd (round_trip (cts_enc_stream toyE 2) (cts_dec_stream toyD 2) ZEROS_PADDING [1;2]%Z [1;2]%Z m) <> ms_data m ++ repeat 0%Z k.
Proof.
  exists (msg [] [50]%Z). split; [discriminate|]. split; [repeat constructor; cbv; intuition discriminate|]. split; [reflexivity|].
  intros k. set (r := snd _). vm_compute in r. subst r. cbn [ms_data message_data msg map concat app fst snd ms_ds ms_last]. intros E.
  destruct k as [|[|[|k]]]; cbn [repeat] in E; try discriminate.
Qed.

(* A toy hash: the length and the sum. *)
Definition toyhash (m : list Z) : list Z := [Z.of_nat (length m) mod 256; fold_right Z.add 7 m mod 256]%Z.
Definition toyobj : hobj (list Z) := mkHO (list Z) (fun s d => Some (s ++ d)) (fun s n => ([], firstn n (toyhash s))) (fun _ => []) 4 2.
Lemma toyobj_ok : implements toyobj (fun s m => s = m) toyhash (fun _ => True) /\ (forall m, bytes (toyhash m)).
Proof.
  split.
  - constructor; cbn [toyobj ho_update ho_final ho_restart ho_dsize fst snd]; auto. { intros s m d -> _. eauto. } intros s m k -> _. auto.
  - intros m. repeat constructor; unfold byte; apply Z.mod_pos_bound; lia.
Qed.
Definition verdicts (fl : hvflags) (ms : list message) (t : @hv (list Z)) : list (list Z * outcome * bool) :=
  (fix go st ms := match ms with [] => [] | m :: r =>
     let '(xs, st') := filter_run (hv_handler toyobj fl 2) st (ms_ops m) in (all_bytes xs, last (map snd xs) Undefined, hv_verified (snd st')) :: go st' r end) (hv_new fl 2, t) ms.
Example C30_example :
  verdicts (mkHVF false true false false true) [msg [[1;2]; [3]]%Z [3;13]%Z; msg [] [3]%Z; msg [[1;2]; [3]]%Z [3;14]%Z; msg [] [0;7]%Z] (mkHV [] [] false) =
    [([1;2;3]%Z, Returns, true); ([], Throws, false); ([1;2;3]%Z, Throws, false); ([], Returns, true)] /\
  verdicts (mkHVF true true false true false) [msg [[3]; [13;1;2]]%Z [3]%Z; msg [[3]; [13;1;2]]%Z [4]%Z] (mkHV [] [] false) =
    [([1;2;3;1]%Z, Returns, true); ([1;2;4;0]%Z, Returns, false)].
Proof. vm_compute. auto. Qed.
(** HASH_AT_BEGIN, a stream too short to hold a digest: it is compared with the digest of an earlier stream, and
    accepted when that was the digest of the empty message; on a fresh filter the comparison reads beyond
    an empty buffer. *)
Theorem C30_short_stream_refuted :
  (exists m, length (ms_data m) < 2 /\
     match verdicts (mkHVF true true false false true) [msg [] [0;7]%Z; m] (mkHV [] [] false) with
     | [_; (_, r, v)] => r = Returns /\ v = true | _ => False end) /\
  (exists m, length (ms_data m) < 2 /\
     match verdicts (mkHVF true true false false true) [m] (mkHV [] [] false) with [(_, r, _)] => r = Undefined | _ => False end).
Proof. split; exists (msg [] [9]%Z); split; try (cbn; lia); vm_compute; auto. Qed.
(** HASH_AT_BEGIN with exceptions: after a refused stream the next one is taken to be all message, compared with
    the digest of the refused one. *)
Theorem C30_after_exception_refuted :
  exists m, let D := ms_data m in 2 <= length D /\ firstn 2 D = firstn 2 (toyhash (skipn 2 D)) /\
    match verdicts (mkHVF true true false false true) [msg [] [9;9;1]%Z; m] (mkHV [] [] false) with
    | [(_, Throws, _); (_, r, v)] => r = Throws /\ v = false | _ => False end.
Proof. exists (msg [] [3;13;1;2;3]%Z). cbv zeta. split; [cbn; lia|]. vm_compute. auto. Qed.
Print Assumptions C27_history.
Print Assumptions C27_messages.
Print Assumptions C27_intact.
Print Assumptions C28_padded_round_trip.
Print Assumptions C29_accepts_iff_valid.
Print Assumptions C28_no_padding_round_trip.
Print Assumptions C28_no_padding_refuses.
Print Assumptions C28_zeros_round_trip.
Print Assumptions C28_special_last_round_trip.
Print Assumptions C30_at_end.
Print Assumptions C30_at_begin.
Print Assumptions C30_hash_filter.
Print Assumptions C30_hash_then_verify.
Print Assumptions C28_ecb_pair.
Print Assumptions C28_cbc_pair.
Print Assumptions C28_cts_pair.
Print Assumptions C28_cbc_padded.
Print Assumptions C28_zeros_with_stealing_refuted.
Print Assumptions C30_short_stream_refuted.
Print Assumptions C30_after_exception_refuted.
