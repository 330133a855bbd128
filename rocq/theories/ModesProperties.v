(** C20-C26: block cipher modes and stream ciphers. *)
From Coq Require Import ZArith List Bool Arith Lia.
From Verif Require Import Base Blocks Mem ModesModel ModesSpec StreamProofs ModesProofs PolicyProofs.
Import ListNotations.
Local Open Scope Z_scope.

Lemma ins_cons : forall c cs, ins (c :: cs) = load (cl_mem c) (cl_in c) (cl_len c) ++ ins cs.
Proof. reflexivity. Qed.
Lemma ins_bytes : forall k cs, Forall (call_ok k) cs -> bytes (ins cs).
Proof.
  induction cs as [|c cs IH]; intros H; [constructor|]. inversion H; subst. rewrite ins_cons. apply bytes_app. split; auto.
  apply load_bytes. apply H2.
Qed.
Lemma ins_mod : forall k cs, k <> 0%nat -> Forall (call_ok k) cs -> (length (ins cs) mod k = 0)%nat.
Proof.
  induction cs as [|c cs IH]; intros Hk H; [apply Nat.mod_0_l; auto|]. inversion H as [|? ? (H1 & H2 & H3) H4]; subst. rewrite ins_cons, app_length, load_length.
  rewrite Nat.add_mod, H3, IH by auto. apply Nat.mod_0_l; auto.
Qed.
Lemma outs_length : forall cs ms, length ms = length cs -> length (outs cs ms) = length (ins cs).
Proof.
  induction cs as [|c cs IH]; intros [|m ms] H; try discriminate; auto. cbn [outs]. rewrite ins_cons, !app_length, !load_length.
  rewrite IH; auto.
Qed.

Section BlockModes.
  Variables (E D : list Z -> list Z) (bs : nat).
  Hypothesis Hbs : bs <> 0%nat.
  Hypothesis HE : cipher_ok bs E.
  Hypothesis HD : cipher_ok bs D.
  Hypothesis Hinv : inverse bs E D.

  (** C20: ECB, any split into calls, in place or not. *)
  Theorem C20_ecb_history : forall cs, Forall (call_ok bs) cs ->
    let '(ms, _) := run_calls (ecb_call E bs) tt cs in outs cs ms = ecb_spec E bs (ins cs) /\ untouched cs ms.
  Proof.
    induction cs as [|c cs IH]; intros H.
    - cbn [run_calls outs untouched]. unfold ecb_spec, ins. cbn [map concat]. rewrite blocks_nil by auto. split; reflexivity.
    - inversion H as [|? ? (H1 & H2 & H3) H4]; subst. cbn [run_calls]. unfold ecb_call at 1.
      destruct (ecb_process_spec E bs Hbs HE (cl_mem c) (cl_out c) (cl_in c) (cl_len c) H1 H2 H3) as [X1 X2].
      specialize (IH H4). destruct (run_calls (ecb_call E bs) tt cs) as [ms u]. destruct IH as [I1 I2]. cbn [outs untouched]. split; [|split; auto].
      rewrite X1, I1, ins_cons. unfold ecb_spec. rewrite blocks_app_mult, map_app, concat_app by (auto; rewrite load_length; auto). reflexivity.
  Qed.
  (** C20: CBC encryption; the register afterwards is the last ciphertext block. *)
  Theorem C20_cbc_encrypt_history : forall cs iv, block_ok bs iv -> Forall (call_ok bs) cs ->
    let '(ms, reg) := run_calls (cbc_enc_call E bs) iv cs in
    outs cs ms = cbc_enc_spec E bs iv (ins cs) /\ untouched cs ms /\ reg = last (cbc_enc_blocks E iv (blocks bs (ins cs))) iv.
  Proof.
    induction cs as [|c cs IH]; intros iv Hi H.
    - cbn [run_calls outs untouched]. unfold cbc_enc_spec, ins. cbn [map concat]. rewrite blocks_nil by auto. repeat split; reflexivity.
    - inversion H as [|? ? (H1 & H2 & H3) H4]; subst. cbn [run_calls]. unfold cbc_enc_call at 1.
      pose proof (cbc_encrypt_spec E bs Hbs HE (cl_mem c) iv (cl_out c) (cl_in c) (cl_len c) H1 Hi H2 H3) as X.
      destruct (cbc_encrypt E bs (cl_mem c) iv (cl_out c) (cl_in c) (cl_len c)) as [m' reg']. destruct X as (X1 & X2 & X3).
      set (l := load (cl_mem c) (cl_in c) (cl_len c)) in *.
      assert (Hl : (length l mod bs = 0)%nat) by (unfold l; rewrite load_length; auto).
      assert (Hr : block_ok bs reg').
      { rewrite X3. apply last_ok; auto. apply cbc_enc_ok; auto. apply blocks_ok; auto. apply load_bytes; auto. }
      specialize (IH reg' Hr H4). destruct (run_calls (cbc_enc_call E bs) reg' cs) as [ms reg]. destruct IH as (I1 & I2 & I3).
      cbn [outs untouched]. rewrite ins_cons. fold l. unfold cbc_enc_spec in *. rewrite blocks_app_mult, cbc_enc_app, <- X3 by auto.
      rewrite concat_app, X1, I1. split; [reflexivity|]. split; [auto|]. rewrite I3.
      destruct (cbc_enc_blocks E reg' (blocks bs (ins cs))) as [|b l2] eqn:Eb; [rewrite app_nil_r; exact X3|].
      rewrite (last_cons _ l2 b reg'). symmetry. rewrite <- (last_cons _ l2 b iv).
      clear. induction (cbc_enc_blocks E iv (blocks bs l)) as [|x xs IHx]; [reflexivity|]. cbn [app]. rewrite last_cons.
      destruct xs as [|y ys]; [cbn [app]; rewrite !last_cons; reflexivity|]. cbn [app] in *. rewrite !last_cons in *. exact IHx.
  Qed.
  (** C20: CBC decryption. *)
  Theorem C20_cbc_decrypt_history : forall cs iv, block_ok bs iv -> Forall (call_ok bs) cs ->
    let '(ms, reg) := run_calls (cbc_dec_call D bs) iv cs in
    outs cs ms = cbc_dec_spec D bs iv (ins cs) /\ untouched cs ms /\ reg = last (blocks bs (ins cs)) iv.
  Proof.
    induction cs as [|c cs IH]; intros iv Hi H.
    - cbn [run_calls outs untouched]. unfold cbc_dec_spec, ins. cbn [map concat]. rewrite blocks_nil by auto. repeat split; reflexivity.
    - inversion H as [|? ? (H1 & H2 & H3) H4]; subst. cbn [run_calls]. unfold cbc_dec_call at 1.
      pose proof (cbc_decrypt_spec D bs Hbs HD (cl_mem c) iv (cl_out c) (cl_in c) (cl_len c) H1 Hi H2 H3) as X.
      destruct (cbc_decrypt D bs (cl_mem c) iv (cl_out c) (cl_in c) (cl_len c)) as [m' reg']. destruct X as (X1 & X2 & X3).
      set (l := load (cl_mem c) (cl_in c) (cl_len c)) in *.
      assert (Hl : (length l mod bs = 0)%nat) by (unfold l; rewrite load_length; auto).
      assert (Hr : block_ok bs reg').
      { rewrite X3. apply last_ok; auto. apply blocks_ok; auto. apply load_bytes; auto. }
      specialize (IH reg' Hr H4). destruct (run_calls (cbc_dec_call D bs) reg' cs) as [ms reg]. destruct IH as (I1 & I2 & I3).
      cbn [outs untouched]. rewrite ins_cons. fold l. unfold cbc_dec_spec in *. rewrite blocks_app_mult, cbc_dec_app, <- X3 by auto.
      rewrite concat_app, X1, I1. split; [reflexivity|]. split; [auto|]. rewrite I3.
      destruct (blocks bs (ins cs)) as [|b l2] eqn:Eb; [rewrite app_nil_r; exact X3|].
      rewrite (last_cons _ l2 b reg'). symmetry. rewrite <- (last_cons _ l2 b iv).
      clear. induction (blocks bs l) as [|x xs IHx]; [reflexivity|]. cbn [app]. rewrite last_cons.
      destruct xs as [|y ys]; [cbn [app]; rewrite !last_cons; reflexivity|]. cbn [app] in *. rewrite !last_cons in *. exact IHx.
  Qed.
  (** C20: the round trips, for independent splits on both sides. *)
  Theorem C20_ecb_round_trip : forall ce cd ms u, Forall (call_ok bs) ce -> Forall (call_ok bs) cd ->
    run_calls (ecb_call E bs) tt ce = (ms, u) -> ins cd = outs ce ms ->
    forall ms' u', run_calls (ecb_call D bs) tt cd = (ms', u') -> outs cd ms' = ins ce.
  Proof.
    intros ce cd ms u He Hd R1 Hc ms' u' R2. pose proof (C20_ecb_history ce He) as X. rewrite R1 in X. destruct X as [X _].
    assert (Y : forall cs, Forall (call_ok bs) cs -> let '(ms, _) := run_calls (ecb_call D bs) tt cs in outs cs ms = ecb_spec D bs (ins cs)).
    { induction cs as [|c cs IH]; intros H.
      - unfold ecb_spec, ins. cbn [run_calls outs map concat]. rewrite blocks_nil by auto. reflexivity.
      - inversion H as [|? ? (H1 & H2 & H3) H4]; subst. cbn [run_calls]. unfold ecb_call at 1.
        destruct (ecb_process_spec D bs Hbs HD (cl_mem c) (cl_out c) (cl_in c) (cl_len c) H1 H2 H3) as [X1 X2].
        specialize (IH H4). destruct (run_calls (ecb_call D bs) tt cs) as [ms2 u2]. cbn [outs].
        rewrite X1, IH, ins_cons. unfold ecb_spec. rewrite blocks_app_mult, map_app, concat_app by (auto; rewrite load_length; auto). reflexivity. }
    specialize (Y cd Hd). rewrite R2 in Y. rewrite Y, Hc, X. unfold ecb_spec.
    pose proof (blocks_ok bs Hbs _ (ins_bytes _ _ He)) as F.
    rewrite blocks_concat; auto.
    - rewrite map_map. rewrite <- (concat_blocks bs Hbs (ins ce)) at 2 by (apply ins_mod; auto). f_equal.
      rewrite <- map_id. apply map_ext_in. intros b Hb. apply Hinv. rewrite Forall_forall in F. auto.
    - apply Forall_map. rewrite Forall_forall in *. intros b Hb. apply HE. auto.
  Qed.
  Theorem C20_cbc_round_trip : forall ce cd iv ms r, block_ok bs iv -> Forall (call_ok bs) ce -> Forall (call_ok bs) cd ->
    run_calls (cbc_enc_call E bs) iv ce = (ms, r) -> ins cd = outs ce ms ->
    forall ms' r', run_calls (cbc_dec_call D bs) iv cd = (ms', r') -> outs cd ms' = ins ce.
  Proof.
    intros ce cd iv ms r Hi He Hd R1 Hc ms' r' R2. pose proof (C20_cbc_encrypt_history ce iv Hi He) as X. rewrite R1 in X. destruct X as (X & _ & _).
    pose proof (C20_cbc_decrypt_history cd iv Hi Hd) as Y. rewrite R2 in Y. destruct Y as (Y & _ & _). rewrite Y, Hc, X. unfold cbc_dec_spec, cbc_enc_spec.
    pose proof (blocks_ok bs Hbs _ (ins_bytes _ _ He)) as F.
    rewrite blocks_concat by (auto; apply ok_lengths; apply cbc_enc_ok; auto).
    rewrite (cbc_inverse E D bs Hbs HE) by auto. apply concat_blocks; auto. apply ins_mod; auto.
  Qed.

  (** C21: any calls for the whole blocks, then ProcessLastBlock with more than one and at most two blocks:
      CBC-CS3 of the whole message; the ciphertext is as long as the message. *)
  Theorem C21_cts_encrypt : forall cs iv ms reg st m out inp len, block_ok bs iv -> Forall (call_ok bs) cs ->
    run_calls (cbc_enc_call E bs) iv cs = (ms, reg) -> mem_ok m -> (bs < len)%nat -> (len <= 2 * bs)%nat -> disjoint inp len out len ->
    exists m' reg', cts_encrypt_last E bs m reg st out inp len = Some (m', reg') /\
      outs cs ms ++ load m' out len = cts_spec E bs iv (ins cs ++ load m inp len) /\ same_outside m m' out len.
  Proof.
    intros cs iv ms reg st m out inp len Hi Hc R Hm H1 H2 Hd. pose proof (C20_cbc_encrypt_history cs iv Hi Hc) as X. rewrite R in X.
    destruct X as (X1 & _ & X3).
    assert (Hr : block_ok bs reg). { rewrite X3. apply last_ok; auto. apply cbc_enc_ok; auto. apply blocks_ok; auto. eapply ins_bytes; eauto. }
    destruct (cts_encrypt_last_spec E bs Hbs HE m reg st out inp len Hm Hr H1 H2 Hd) as (m' & reg' & A1 & A2 & A3).
    exists m', reg'. split; [exact A1|]. split; [|exact A3]. rewrite X1, A2, X3. apply cts_is_spec; auto; rewrite ?load_length; auto.
    - eapply ins_bytes; eauto.
    - apply load_bytes; auto.
    - apply ins_mod; auto.
  Qed.
  Theorem C21_cts_round_trip : forall ce cd iv ms reg ms' reg' st m out inp len m1 r1 m2 out2 inp2,
    block_ok bs iv -> Forall (call_ok bs) ce -> Forall (call_ok bs) cd ->
    (* encryption *)
    run_calls (cbc_enc_call E bs) iv ce = (ms, reg) -> mem_ok m -> (bs < len)%nat -> (len <= 2 * bs)%nat -> disjoint inp len out len ->
    cts_encrypt_last E bs m reg st out inp len = Some (m1, r1) ->
    (* decryption of the same bytes *)
    ins cd = outs ce ms -> run_calls (cbc_dec_call D bs) iv cd = (ms', reg') ->
    mem_ok m2 -> load m2 inp2 len = load m1 out len -> disjoint inp2 len out2 len ->
    outs cd ms' ++ load (cts_decrypt_last D bs m2 reg' out2 inp2 len) out2 len = ins ce ++ load m inp len.
  Proof.
    intros ce cd iv ms reg ms' reg' st m out inp len m1 r1 m2 out2 inp2 Hi He Hd R1 Hm H1 H2 Hdis El Hc R2 Hm2 Hl Hdis2.
    rewrite (C20_cbc_round_trip ce cd iv ms reg Hi He Hd R1 Hc ms' reg' R2). f_equal.
    pose proof (C20_cbc_encrypt_history ce iv Hi He) as X. rewrite R1 in X. destruct X as (X1 & _ & X3).
    pose proof (C20_cbc_decrypt_history cd iv Hi Hd) as Y. rewrite R2 in Y. destruct Y as (_ & _ & Y3).
    pose proof (blocks_ok bs Hbs _ (ins_bytes _ _ He)) as F.
    assert (Er : reg' = reg).
    { rewrite Y3, Hc, X1, X3. unfold cbc_enc_spec. rewrite blocks_concat by (auto; apply ok_lengths; apply cbc_enc_ok; auto). reflexivity. }
    assert (Hr : block_ok bs reg) by (rewrite X3; apply last_ok; auto; apply cbc_enc_ok; auto).
    destruct (cts_encrypt_last_spec E bs Hbs HE m reg st out inp len Hm Hr H1 H2 Hdis) as (m1' & r1' & A1 & A2 & A3).
    rewrite El in A1. injection A1 as <- <-.
    destruct (cts_decrypt_last_spec D bs Hbs HD m2 reg' out2 inp2 len Hm2 ltac:(rewrite Er; auto) H1 H2 Hdis2) as [B1 _].
    rewrite B1, Hl, A2, Er. apply cts_inverse; rewrite ?load_length; auto. apply load_bytes; auto.
  Qed.
  (** C21: messages of at most one block with a stolen IV: the ciphertext is the beginning of the IV, the
      encrypted block goes where the IV was, and a decryptor given that block as IV returns the message. *)
  Theorem C21_stolen_iv_round_trip : forall iv m p out inp len m2 out2 inp2, block_ok bs iv -> mem_ok m -> (len <= bs)%nat ->
    disjoint inp len out len -> disjoint p bs out len ->
    exists m1 r1, cts_encrypt_last E bs m iv (Some p) out inp len = Some (m1, r1) /\
      (mem_ok m2 -> load m2 inp2 len = load m1 out len ->
       load (cts_decrypt_last D bs m2 (load m1 p bs) out2 inp2 len) out2 len = load m inp len).
  Proof.
    intros iv m p out inp len m2 out2 inp2 Hi Hm Hl Hd Hp.
    destruct (cts_encrypt_iv_spec E bs Hbs HE m iv p out inp len Hm Hi Hl Hd Hp) as (m1 & r1 & A1 & A2 & A3 & A4).
    exists m1, r1. split; [exact A1|]. intros Hm2 Hc.
    assert (Lz : block_ok bs (zpad bs (load m inp len))) by (apply zpad_ok; [apply load_bytes; auto|rewrite load_length; auto]).
    assert (Lx : block_ok bs (xorl iv (zpad bs (load m inp len)))) by (apply xorl_block; auto).
    destruct (cts_decrypt_iv_spec D bs Hbs HD m2 (load m1 p bs) out2 inp2 len Hm2 ltac:(rewrite A3; apply HE; auto) Hl) as [B1 _].
    rewrite B1, Hc, A2, A3, Hinv by auto. rewrite xorl_firstn. unfold zpad. rewrite firstn_app_le, (firstn_all2 (load m inp len)) by (rewrite load_length; lia).
    rewrite (xorl_comm (firstn len iv)). apply xorl_cancel. rewrite load_length, firstn_length. destruct Hi; lia.
  Qed.
  (** Without a stolen IV a message of at most one block is refused. *)
  Theorem C21_short_refused : forall iv m out inp len, (len <= bs)%nat -> cts_encrypt_last E bs m iv None out inp len = None.
  Proof. intros. unfold cts_encrypt_last. rewrite (proj2 (Nat.leb_le len bs)) by auto. reflexivity. Qed.
End BlockModes.

(** C22: CFB with any feedback size, any history of calls and resynchronizations, either direction. *)
Theorem C22_cfb_history : forall E bs fb enc, (0 < fb <= bs)%nat -> cipher_ok bs E -> forall ops iv, block_ok bs iv -> Forall fop_ok ops ->
  spec_fops enc E bs fb iv [] ops (cfb_ops E bs fb enc (cfb_resync E fb iv) ops).
Proof.
  intros E bs fb enc Hfb HE ops.
  assert (G : forall ops iv hist s, block_ok bs iv -> bytes hist -> Forall fop_ok ops ->
    crep E bs fb s (snd (cfb_run E fb enc (iv, []) hist)) -> spec_fops enc E bs fb iv hist ops (cfb_ops E bs fb enc s ops)).
  { clear ops. induction ops as [|op ops IH]; intros iv hist s Hi Hh Ho Hr; [exact I|]. inversion Ho as [|? ? O1 O2]; subst. cbn [cfb_ops].
    destruct op as [al c|iv']; cbn [cfb_step].
    - destruct O1 as (M1 & M2 & _).
      pose proof (cfb_process_spec E bs fb Hfb HE enc al s _ (cl_mem c) (cl_out c) (cl_in c) (cl_len c) Hr M1 M2) as X.
      destruct (cfb_process E bs fb enc al s (cl_mem c) (cl_out c) (cl_in c) (cl_len c)) as [m' s']. destruct X as [[X1 X2] X3].
      set (msg := load (cl_mem c) (cl_in c) (cl_len c)) in *. cbn [spec_fops]. fold msg.
      assert (Hm : bytes msg) by (apply load_bytes; auto).
      assert (Hhm : bytes (hist ++ msg)) by (apply bytes_app; auto).
      split; [|split; [exact X2|]].
      + rewrite X1. rewrite <- (cfb_run_spec E bs fb Hfb HE enc (hist ++ msg) iv Hi Hhm). rewrite cfb_run_app.
        pose proof (cfb_run_length E bs fb Hfb enc hist (iv, [])) as L.
        destruct (cfb_run E fb enc (iv, []) hist) as [o1 st1]. cbn [fst snd] in *.
        destruct (cfb_run E fb enc st1 msg) as [o2 st2]. cbn [fst]. rewrite skipn_app_ge by lia. rewrite L, Nat.sub_diag. reflexivity.
      + apply IH; auto. rewrite cfb_run_app. destruct (cfb_run E fb enc (iv, []) hist) as [o1 st1]. cbn [fst snd] in *.
        destruct (cfb_run E fb enc st1 msg) as [o2 st2]. exact X3.
    - cbn [spec_fops]. destruct (Nat.eqb_spec (length iv') bs) as [E1|E1]; split; auto.
      apply IH; auto; [split; auto|constructor|]. apply cfb_resync_rep; auto. split; auto. }
  intros iv Hi Ho. apply G; auto; [constructor|]. apply cfb_resync_rep; auto.
Qed.
(** C22: CFB decryption undoes encryption (on the published definitions the calls were shown to compute). *)
Theorem C22_cfb_round_trip : forall E bs fb iv msg, (0 < fb <= bs)%nat -> cipher_ok bs E -> block_ok bs iv -> bytes msg ->
  cfb_spec false E fb iv (cfb_spec true E fb iv msg) = msg.
Proof.
  intros E bs fb iv msg Hfb HE Hi Hm. revert iv Hi Hm. pattern msg. apply (block_ind fb); [lia| |].
  - intros l Hl iv Hi Hb. pose proof (HE iv Hi) as [Le _]. unfold cfb_spec. rewrite (blocks_small fb l), (rest_small fb l) by auto.
    cbn [app cfb_enc_segs concat]. rewrite app_nil_r.
    assert (L : length (xorl l (firstn fb (E iv))) = length l) by (rewrite xorl_length, firstn_length; lia).
    rewrite blocks_small, rest_small by lia. cbn [app cfb_dec_segs concat]. rewrite app_nil_r. apply xorl_cancel. rewrite firstn_length; lia.
  - intros b l Hbl IH iv Hi Hb. pose proof (HE iv Hi) as [Le Lb]. apply bytes_app in Hb. destruct Hb as [B1 B2].
    unfold cfb_spec in *. rewrite (blocks_app_block fb b l), (rest_app_block fb b l) by (auto; lia). cbn [app cfb_enc_segs concat].
    assert (L : length (xorl b (firstn fb (E iv))) = fb) by (rewrite xorl_length, firstn_length; lia).
    rewrite blocks_app_block, rest_app_block by (auto; lia). cbn [app cfb_dec_segs concat]. rewrite IH; auto.
    + f_equal. apply xorl_cancel. rewrite firstn_length; lia.
    + apply (shift_ok bs fb Hfb); auto. apply xorl_bytes; auto. apply bytes_firstn; auto.
Qed.
(** C22: the same on objects: one history of encryption calls, one of decryption calls. *)
Definition fcalls (al : bool) (cs : list call) : list fop := map (FProcess al) cs.
Fixpoint fmems (os : list fout) : list mem := match os with FMem m :: r => m :: fmems r | _ => [] end.
Lemma spec_fops_calls : forall enc E bs fb al cs iv hist os, (0 < fb <= bs)%nat -> cipher_ok bs E -> block_ok bs iv -> bytes hist -> Forall (call_ok 1) cs ->
  spec_fops enc E bs fb iv hist (fcalls al cs) os ->
  cfb_spec enc E fb iv (hist ++ ins cs) = firstn (length hist) (cfb_spec enc E fb iv (hist ++ ins cs)) ++ outs cs (fmems os).
Proof.
  intros enc E bs fb al cs iv hist os Hfb HE Hi Hh Hc. revert hist os Hh.
  assert (Len : forall l, bytes l -> length (cfb_spec enc E fb iv l) = length l).
  { intros l Hl. rewrite <- (cfb_run_spec E bs fb Hfb HE enc l iv Hi Hl). apply (cfb_run_length E bs fb Hfb). }
  assert (Pre : forall a b, bytes a -> bytes b -> firstn (length a) (cfb_spec enc E fb iv (a ++ b)) = cfb_spec enc E fb iv a).
  { intros a b Ha Hb. rewrite <- (cfb_run_spec E bs fb Hfb HE enc (a ++ b) iv Hi) by (apply bytes_app; auto).
    rewrite <- (cfb_run_spec E bs fb Hfb HE enc a iv Hi Ha). rewrite cfb_run_app. pose proof (cfb_run_length E bs fb Hfb enc a (iv, [])) as L.
    destruct (cfb_run E fb enc (iv, []) a) as [o1 st1]. destruct (cfb_run E fb enc st1 b) as [o2 st2]. cbn [fst] in *.
    rewrite firstn_app_le, firstn_all2 by lia. reflexivity. }
  induction cs as [|c cs IH]; intros hist os Hh S.
  - cbn [outs]. rewrite app_nil_r. unfold ins. cbn [map concat]. rewrite app_nil_r. rewrite firstn_all2; auto. rewrite Len; auto.
  - inversion Hc as [|? ? H1 H2]; subst. unfold fcalls in S. cbn [map spec_fops] in S. destruct os as [|[m'| |] os]; try contradiction.
    set (msg := load (cl_mem c) (cl_in c) (cl_len c)) in *. destruct S as (S1 & S2 & S3). cbn [fmems outs]. rewrite ins_cons. fold msg.
    assert (Hm : bytes msg) by (apply load_bytes; apply H1).
    pose proof (ins_bytes _ _ H2) as Hin.
    assert (Hhm : bytes (hist ++ msg)) by (apply bytes_app; auto).
    specialize (IH H2 (hist ++ msg) os Hhm S3). rewrite <- app_assoc in IH.
    rewrite S1. rewrite (Pre hist (msg ++ ins cs)) by (auto; apply bytes_app; auto). rewrite IH at 1.
    rewrite app_assoc at 1. rewrite Pre by auto. rewrite app_assoc. f_equal.
    rewrite <- (Pre hist msg) by auto. symmetry. apply firstn_skipn.
Qed.
Theorem C22_cfb_objects_round_trip : forall E bs fb iv al al' ce cd, (0 < fb <= bs)%nat -> cipher_ok bs E -> block_ok bs iv ->
  Forall (call_ok 1) ce -> Forall (call_ok 1) cd ->
  let oe := outs ce (fmems (cfb_ops E bs fb true (cfb_resync E fb iv) (fcalls al ce))) in
  let od := outs cd (fmems (cfb_ops E bs fb false (cfb_resync E fb iv) (fcalls al' cd))) in
  ins cd = oe -> od = ins ce.
Proof.
  intros E bs fb iv al al' ce cd Hfb HE Hi He Hd oe od Hc.
  assert (Fo : forall a cs, Forall (call_ok 1) cs -> Forall fop_ok (fcalls a cs)) by (intros a cs H; apply Forall_map; exact H).
  pose proof (spec_fops_calls true E bs fb al ce iv [] _ Hfb HE Hi ltac:(constructor) He (C22_cfb_history E bs fb true Hfb HE _ iv Hi (Fo al ce He))) as X.
  pose proof (spec_fops_calls false E bs fb al' cd iv [] _ Hfb HE Hi ltac:(constructor) Hd (C22_cfb_history E bs fb false Hfb HE _ iv Hi (Fo al' cd Hd))) as Y.
  cbn [app firstn length] in X, Y. fold oe in X. fold od in Y. rewrite <- Y, Hc, <- X. apply (C22_cfb_round_trip E bs fb); auto. eapply ins_bytes; eauto.
Qed.

(** C23: every keystream policy obeying the laws: any history of ProcessData, GenerateBlock, Seek and Resynchronize
    reads one fixed keystream per IV. *)
Theorem C23_additive_history : forall P (pl : policy P) kb keyed prep p iv fresh ops,
  policy_law pl kb keyed prep -> keyed p -> length iv = pl_ivsize pl -> bytes iv -> Forall sop_ok ops ->
  all_agree ops (spec_srun kb (pl_bpi pl) (pl_ivsize pl) (match pl_seek pl with Some _ => true | None => false end) (iv, 0) ops)
    (ac_run pl (ac_setkey pl p iv fresh) ops).
Proof. intros. apply additive_history with keyed prep; auto. eapply ac_setkey_rep; eauto. Qed.
(** C23 for the two policies of this library's modes: OFB cannot seek, CTR can. *)
Theorem C23_ofb_history : forall E bs par p iv fresh ops, bs <> 0%nat -> par <> 0%nat -> cipher_ok bs E -> block_ok bs iv -> Forall sop_ok ops ->
  all_agree ops (spec_srun (ofb_block E) bs bs false (iv, 0) ops) (ac_run (ofb_policy E bs par) (ac_setkey (ofb_policy E bs par) p iv fresh) ops).
Proof.
  intros E bs par p iv fresh ops H1 H2 HE [L1 L2] Ho.
  apply (C23_additive_history _ (ofb_policy E bs par) (ofb_block E) (fun _ => True) (ofb_prep E bs) p iv fresh ops); auto. apply ofb_law; auto.
Qed.
Theorem C23_ctr_history : forall E bs par p iv fresh ops, bs <> 0%nat -> par <> 0%nat -> cipher_ok bs E -> block_ok bs iv -> Forall sop_ok ops ->
  all_agree ops (spec_srun (ctr_block E bs) bs bs true (iv, 0) ops) (ac_run (ctr_policy E bs par) (ac_setkey (ctr_policy E bs par) p iv fresh) ops).
Proof.
  intros E bs par p iv fresh ops H1 H2 HE [L1 L2] Ho.
  apply (C23_additive_history _ (ctr_policy E bs par) (ctr_block E bs) (fun _ => True) (ctr_prep bs) p iv fresh ops); auto. apply ctr_law; auto.
Qed.

(** C22: OFB, CTR and every other additive cipher decrypt what they encrypted, however both sides split the stream. *)
Lemma ac_calls_spec : forall P (pl : policy P) kb keyed prep, policy_law pl kb keyed prep -> forall cs s iv pos, arep pl kb prep s iv pos -> Forall (call_ok 1) cs ->
  let '(ms, s') := run_calls (ac_call pl) s cs in
  outs cs ms = xorl (ins cs) (load (keystream (kb iv) (pl_bpi pl)) pos (length (ins cs))) /\ untouched cs ms.
Proof.
  intros P pl kb keyed prep LAW. induction cs as [|c cs IH]; intros s iv pos Hr Hc; [split; reflexivity|]. inversion Hc as [|? ? (H1 & H2 & H3) H4]; subst.
  cbn [run_calls]. unfold ac_call at 1. pose proof (ac_process_spec pl kb keyed prep LAW s (cl_mem c) (cl_out c) (cl_in c) (cl_len c) iv pos Hr H2) as X.
  destruct (ac_process pl s (cl_mem c) (cl_out c) (cl_in c) (cl_len c)) as [s1 m1]. destruct X as [[X1 X2] X3].
  specialize (IH s1 iv _ X3 H4). destruct (run_calls (ac_call pl) s1 cs) as [ms s']. destruct IH as [I1 I2]. cbn [outs untouched]. split; [|split; auto].
  rewrite ins_cons, app_length, load_length, load_app. rewrite xorl_app by (rewrite !load_length; reflexivity). rewrite X1, I1. reflexivity.
Qed.
Theorem C22_additive_round_trip : forall P (pl : policy P) kb keyed prep p p' iv fresh fresh' ce cd,
  policy_law pl kb keyed prep -> keyed p -> keyed p' -> length iv = pl_ivsize pl -> bytes iv -> Forall (call_ok 1) ce -> Forall (call_ok 1) cd ->
  let oe := outs ce (fst (run_calls (ac_call pl) (ac_setkey pl p iv fresh) ce)) in
  let od := outs cd (fst (run_calls (ac_call pl) (ac_setkey pl p' iv fresh') cd)) in
  ins cd = oe -> od = ins ce.
Proof.
  intros P pl kb keyed prep p p' iv fresh fresh' ce cd LAW Hp Hp' L1 L2 He Hd oe od Hc.
  pose proof (ac_calls_spec _ _ _ _ _ LAW ce _ iv 0 (ac_setkey_rep _ _ _ _ LAW p iv fresh Hp L1 L2) He) as X.
  pose proof (ac_calls_spec _ _ _ _ _ LAW cd _ iv 0 (ac_setkey_rep _ _ _ _ LAW p' iv fresh' Hp' L1 L2) Hd) as Y.
  unfold oe, od in *. destruct (run_calls (ac_call pl) (ac_setkey pl p iv fresh) ce) as [ms s]. destruct (run_calls (ac_call pl) (ac_setkey pl p' iv fresh') cd) as [ms' s'].
  cbn [fst] in *. destruct X as [X _], Y as [Y _]. rewrite Y, Hc, X.
  assert (Lx : length (xorl (ins ce) (load (keystream (kb iv) (pl_bpi pl)) 0 (length (ins ce)))) = length (ins ce)) by (rewrite xorl_length, load_length; lia).
  rewrite Lx. apply xorl_cancel. rewrite load_length. lia.
Qed.
Theorem C22_ofb_round_trip : forall E bs par p p' iv fresh fresh' ce cd, bs <> 0%nat -> par <> 0%nat -> cipher_ok bs E -> block_ok bs iv ->
  Forall (call_ok 1) ce -> Forall (call_ok 1) cd ->
  let pl := ofb_policy E bs par in
  ins cd = outs ce (fst (run_calls (ac_call pl) (ac_setkey pl p iv fresh) ce)) ->
  outs cd (fst (run_calls (ac_call pl) (ac_setkey pl p' iv fresh') cd)) = ins ce.
Proof.
  intros E bs par p p' iv fresh fresh' ce cd H1 H2 HE [L1 L2] He Hd pl Hc.
  apply (C22_additive_round_trip _ pl (ofb_block E) (fun _ => True) (ofb_prep E bs) p p' iv fresh fresh' ce cd); auto. apply ofb_law; auto.
Qed.
Theorem C22_ctr_round_trip : forall E bs par p p' iv fresh fresh' ce cd, bs <> 0%nat -> par <> 0%nat -> cipher_ok bs E -> block_ok bs iv ->
  Forall (call_ok 1) ce -> Forall (call_ok 1) cd ->
  let pl := ctr_policy E bs par in
  ins cd = outs ce (fst (run_calls (ac_call pl) (ac_setkey pl p iv fresh) ce)) ->
  outs cd (fst (run_calls (ac_call pl) (ac_setkey pl p' iv fresh') cd)) = ins ce.
Proof.
  intros E bs par p p' iv fresh fresh' ce cd H1 H2 HE [L1 L2] He Hd pl Hc.
  apply (C22_additive_round_trip _ pl (ctr_block E bs) (fun _ => True) (ctr_prep bs) p p' iv fresh fresh' ce cd); auto. apply ctr_law; auto.
Qed.

(** What happens after a prefix of a history. *)
Fixpoint spec_state (kb : list Z -> Z -> list Z) bpi ivsize seekable st (ops : list sop) : list Z * Z :=
  match ops with [] => st | op :: r => spec_state kb bpi ivsize seekable (fst (spec_sstep kb bpi ivsize seekable st op)) r end.
Lemma all_agree_app : forall a b xs os, all_agree (a ++ b) xs os -> exists x1 x2, xs = x1 ++ x2 /\ length x1 = length a /\ all_agree b x2 (skipn (length a) os).
Proof.
  induction a as [|op a IH]; intros b xs os H; [exists [], xs; auto|]. cbn [app all_agree] in H. destruct xs as [|x xs]; [contradiction|]. destruct os as [|o os]; [contradiction|].
  destruct H as [_ H]. destruct (IH _ _ _ H) as (x1 & x2 & -> & L & A). exists (x :: x1), x2. cbn [length skipn app]. auto.
Qed.
Lemma spec_srun_app : forall kb bpi ivs sk a b st, spec_srun kb bpi ivs sk st (a ++ b) =
  spec_srun kb bpi ivs sk st a ++ spec_srun kb bpi ivs sk (spec_state kb bpi ivs sk st a) b.
Proof.
  induction a as [|op a IH]; intros b st; [reflexivity|]. cbn [app spec_srun spec_state]. destruct (spec_sstep kb bpi ivs sk st op) as [st' x]. cbn [fst]. rewrite IH. reflexivity.
Qed.
Lemma spec_srun_length : forall kb bpi ivs sk a st, length (spec_srun kb bpi ivs sk st a) = length a.
Proof. induction a as [|op a IH]; intros st; [reflexivity|]. cbn [spec_srun]. destruct (spec_sstep kb bpi ivs sk st op). cbn [length]. rewrite IH. reflexivity. Qed.
Lemma spec_state_iv : forall kb bpi ivs sk a iv pos, fst (spec_state kb bpi ivs sk (iv, pos) a) = iv_after ivs iv a.
Proof.
  induction a as [|op a IH]; intros iv pos; [reflexivity|]. cbn [spec_state]. destruct op; cbn [spec_sstep iv_after].
  - apply IH.
  - apply IH.
  - destruct sk; apply IH.
  - destruct (Nat.eqb (length iv0) ivs); apply IH.
Qed.
Lemma history_suffix : forall P (pl : policy P) kb keyed prep p iv fresh a b,
  policy_law pl kb keyed prep -> keyed p -> length iv = pl_ivsize pl -> bytes iv -> Forall sop_ok (a ++ b) ->
  let sk := match pl_seek pl with Some _ => true | None => false end in
  all_agree b (spec_srun kb (pl_bpi pl) (pl_ivsize pl) sk (spec_state kb (pl_bpi pl) (pl_ivsize pl) sk (iv, 0) a) b)
    (skipn (length a) (ac_run pl (ac_setkey pl p iv fresh) (a ++ b))).
Proof.
  intros P pl kb keyed prep p iv fresh a b LAW Hp L1 L2 Ho sk. pose proof (C23_additive_history P pl kb keyed prep p iv fresh (a ++ b) LAW Hp L1 L2 Ho) as H.
  fold sk in H. rewrite spec_srun_app in H. destruct (all_agree_app _ _ _ _ H) as (x1 & x2 & Ex & Lx & A).
  apply app_inj_length in Ex; [|rewrite spec_srun_length; auto]. destruct Ex as [_ ->]. exact A.
Qed.

(** C24: after Seek(n), whatever happened before, output continues at byte n of the keystream of the IV in force. *)
Theorem C24_seek : forall P (pl : policy P) kb keyed prep p iv fresh before n after,
  policy_law pl kb keyed prep -> pl_seek pl <> None -> keyed p -> length iv = pl_ivsize pl -> bytes iv ->
  Forall sop_ok (before ++ SSeek n :: after) ->
  all_agree after (spec_srun kb (pl_bpi pl) (pl_ivsize pl) true (iv_after (pl_ivsize pl) iv before, n) after)
    (skipn (S (length before)) (ac_run pl (ac_setkey pl p iv fresh) (before ++ SSeek n :: after))).
Proof.
  intros P pl kb keyed prep p iv fresh before n after LAW Hs Hp L1 L2 Ho.
  replace (before ++ SSeek n :: after) with ((before ++ [SSeek n]) ++ after) in * by (rewrite <- app_assoc; reflexivity).
  pose proof (history_suffix P pl kb keyed prep p iv fresh (before ++ [SSeek n]) after LAW Hp L1 L2 Ho) as H. cbv zeta in H.
  rewrite app_length in H. cbn [length] in H. rewrite Nat.add_1_r in H.
  destruct (pl_seek pl) eqn:Ek; [|congruence].
  replace (spec_state kb (pl_bpi pl) (pl_ivsize pl) true (iv, 0) (before ++ [SSeek n])) with (iv_after (pl_ivsize pl) iv before, n) in H; [exact H|].
  clear. rewrite <- (spec_state_iv kb (pl_bpi pl) (pl_ivsize pl) true before iv 0).
  generalize (iv, 0). induction before as [|op b IH]; intros st; [destruct st; reflexivity|]. cbn [app spec_state]. apply IH.
Qed.
(** C24 for CTR: the next [len] bytes generated after Seek(n) are bytes n, n+1, ... of the keystream. *)
Theorem C24_ctr_seek : forall E bs par p iv fresh before n m out len, bs <> 0%nat -> par <> 0%nat -> cipher_ok bs E -> block_ok bs iv ->
  Forall sop_ok before -> 0 <= n < 2 ^ 64 ->
  let pl := ctr_policy E bs par in
  exists m', nth (S (length before)) (ac_run pl (ac_setkey pl p iv fresh) (before ++ [SSeek n; SGenerate m out len])) SDone = SMem m' /\
    load m' out len = load (keystream (ctr_block E bs (iv_after bs iv before)) bs) n len.
Proof.
  intros E bs par p iv fresh before n m out len H1 H2 HE [L1 L2] Ho Hn pl.
  pose proof (C24_seek _ pl (ctr_block E bs) (fun _ => True) (ctr_prep bs) p iv fresh before n [SGenerate m out len] (ctr_law E bs par H1 H2 HE) ltac:(discriminate) I L1 L2) as H.
  specialize (H ltac:(apply Forall_app; split; auto; repeat constructor; cbn [sop_ok]; auto; lia)).
  set (os := ac_run pl _ _) in *. rewrite <- (Nat.add_0_r (S (length before))), <- nth_skipn_add.
  destruct (skipn (S (length before)) os) as [|o rest] eqn:Es; cbn [spec_srun spec_sstep all_agree] in H; [contradiction|].
  destruct H as [H _]. destruct o; cbn [agrees] in H; try contradiction. exists m0. split; [reflexivity|]. apply H.
Qed.
(** Seek(n) is the same as generating n bytes: both runs continue identically. *)
Theorem C24_seek_is_discard : forall P (pl : policy P) kb keyed prep p iv fresh fresh' n m out after,
  policy_law pl kb keyed prep -> pl_seek pl <> None -> keyed p -> length iv = pl_ivsize pl -> bytes iv ->
  Z.of_nat n < 2 ^ 64 -> Forall sop_ok after ->
  exists xs, all_agree after xs (skipn 1 (ac_run pl (ac_setkey pl p iv fresh) (SSeek (Z.of_nat n) :: after))) /\
             all_agree after xs (skipn 1 (ac_run pl (ac_setkey pl p iv fresh') (SGenerate m out n :: after))).
Proof.
  intros P pl kb keyed prep p iv fresh fresh' n m out after LAW Hs Hp L1 L2 Hn Ho.
  exists (spec_srun kb (pl_bpi pl) (pl_ivsize pl) true (iv, Z.of_nat n) after). split.
  - apply (C24_seek P pl kb keyed prep p iv fresh [] (Z.of_nat n) after); auto. constructor; auto. cbn [sop_ok]. lia.
  - pose proof (history_suffix P pl kb keyed prep p iv fresh' [SGenerate m out n] after LAW Hp L1 L2 ltac:(constructor; [exact I|auto])) as H.
    cbv zeta in H. destruct (pl_seek pl); [|congruence]. exact H.
Qed.

(** C25: the counter is a big-endian integer modulo 256^bs, however many bytes the carry crosses. *)
Theorem C25_ctr_blocks : forall E bs par p iv fresh m out n, bs <> 0%nat -> par <> 0%nat -> cipher_ok bs E -> block_ok bs iv ->
  let pl := ctr_policy E bs par in
  let '(_, m') := ac_generate pl (ac_setkey pl p iv fresh) m out (n * bs) in
  load m' out (n * bs) = concat (map (fun i => E (be_bytes bs ((be_val iv + Z.of_nat i) mod 256 ^ Z.of_nat bs))) (seq 0 n)).
Proof.
  intros E bs par p iv fresh m out n H1 H2 HE Hi pl.
  pose proof (ac_setkey_rep pl (ctr_block E bs) (fun _ => True) (ctr_prep bs) (ctr_law E bs par H1 H2 HE) p iv fresh I (proj1 Hi) (proj2 Hi)) as R.
  pose proof (ac_generate_spec pl (ctr_block E bs) (fun _ => True) (ctr_prep bs) (ctr_law E bs par H1 H2 HE) _ m out (n * bs) iv 0 R) as X.
  destruct (ac_generate pl (ac_setkey pl p iv fresh) m out (n * bs)) as [s' m']. destruct X as [[X _] _]. rewrite X.
  change (pl_bpi pl) with bs. change 0 with (0 * Z.of_nat bs). rewrite keystream_blocks; auto.
  - f_equal. apply map_ext. intros i. unfold ctr_block. f_equal. rewrite Z.add_0_l.
    apply be_val_inj; try apply be_bytes_bytes; rewrite ?be_bytes_length; auto. rewrite !be_val_bytes_mod. rewrite Z.mod_mod by lia. reflexivity.
  - intros j _. apply HE, be_ok.
Qed.
Theorem C25_increment : forall c, bytes c -> inc_counter c (length c) = be_bytes (length c) ((be_val c + 1) mod 256 ^ Z.of_nat (length c)).
Proof.
  intros c Hc. rewrite <- (be_bytes_val c Hc) at 1. rewrite <- (app_nil_r (be_bytes _ _)). rewrite inc_counter_spec, app_nil_r.
  apply be_val_inj; try apply be_bytes_bytes; rewrite ?be_bytes_length; auto. rewrite !be_val_bytes_mod, Z.mod_mod by lia. reflexivity.
Qed.
Theorem C25_seek_iteration : forall reg arr n, bytes reg -> length arr = length reg -> 0 <= n ->
  ctr_seek_loop reg (length reg) n 0 arr = be_bytes (length reg) ((be_val reg + n) mod 256 ^ Z.of_nat (length reg)).
Proof.
  intros reg arr n Hr Ha Hn. rewrite ctr_seek_spec by (auto; lia). rewrite firstn_all, Z.add_0_r, (skipn_all2 arr), app_nil_r by lia.
  apply be_val_inj; try apply be_bytes_bytes; rewrite ?be_bytes_length; auto. rewrite !be_val_bytes_mod, Z.mod_mod by lia. reflexivity.
Qed.

(** C26: after Resynchronize(iv) any history continues as on a freshly keyed object with that IV. *)
Theorem C26_resynchronize : forall P (pl : policy P) kb keyed prep p p' iv iv' fresh fresh' fresh'' before after,
  policy_law pl kb keyed prep -> keyed p -> keyed p' -> length iv = pl_ivsize pl -> bytes iv -> length iv' = pl_ivsize pl -> bytes iv' ->
  Forall sop_ok before -> Forall sop_ok after ->
  exists xs, all_agree after xs (skipn (S (length before)) (ac_run pl (ac_setkey pl p iv fresh) (before ++ SResync iv' fresh' :: after))) /\
             all_agree after xs (ac_run pl (ac_setkey pl p' iv' fresh'') after).
Proof.
  intros P pl kb keyed prep p p' iv iv' fresh fresh' fresh'' before after LAW Hp Hp' L1 L2 L3 L4 Hb Ha.
  set (sk := match pl_seek pl with Some _ => true | None => false end).
  exists (spec_srun kb (pl_bpi pl) (pl_ivsize pl) sk (iv', 0) after). split; [|eapply C23_additive_history; eauto].
  replace (before ++ SResync iv' fresh' :: after) with ((before ++ [SResync iv' fresh']) ++ after) by (rewrite <- app_assoc; reflexivity).
  assert (Ho : Forall sop_ok ((before ++ [SResync iv' fresh']) ++ after)).
  { apply Forall_app. split; auto. apply Forall_app. split; auto. }
  pose proof (history_suffix P pl kb keyed prep p iv fresh (before ++ [SResync iv' fresh']) after LAW Hp L1 L2 Ho) as H. cbv zeta in H. fold sk in H.
  rewrite app_length in H. cbn [length] in H. rewrite Nat.add_1_r in H.
  replace (spec_state kb (pl_bpi pl) (pl_ivsize pl) sk (iv, 0) (before ++ [SResync iv' fresh'])) with (iv', 0) in H; [exact H|].
  clear -L3. generalize (iv, 0). induction before as [|op b IH]; intros st.
  - cbn [app spec_state]. destruct st. cbn [spec_sstep]. rewrite (proj2 (Nat.eqb_eq _ _) L3). reflexivity.
  - cbn [app spec_state]. apply IH.
Qed.
(** The same for CFB: nothing of the history before it is left. *)
Theorem C26_cfb_resynchronize : forall E bs fb enc, (0 < fb <= bs)%nat -> cipher_ok bs E -> forall before iv iv' after, block_ok bs iv -> block_ok bs iv' ->
  Forall fop_ok before -> Forall fop_ok after ->
  skipn (S (length before)) (cfb_ops E bs fb enc (cfb_resync E fb iv) (before ++ FResync iv' :: after)) =
  cfb_ops E bs fb enc (cfb_resync E fb iv') after.
Proof.
  intros E bs fb enc Hfb HE before iv iv' after Hi [L _] Hb Ha. generalize (cfb_resync E fb iv). clear Hi Hb.
  induction before as [|op b IH]; intros s.
  - cbn [app cfb_ops cfb_step length]. rewrite (proj2 (Nat.eqb_eq _ _) L). reflexivity.
  - cbn [app cfb_ops]. destruct (cfb_step E bs fb enc s op) as [s' o]. cbn [length]. rewrite <- (IH s'). reflexivity.
Qed.

(* -------------------------------------------------------------------- a concrete cipher and concrete runs *)

(** A permutation of two-byte blocks. *)
Definition toyE (b : list Z) : list Z := [(nth 1 b 0 + 7) mod 256; Z.lxor (nth 0 b 0) 90].
Definition toyD (b : list Z) : list Z := [Z.lxor (nth 1 b 0) 90; (nth 0 b 0 - 7) mod 256].
Lemma two_bytes : forall b, block_ok 2 b -> exists x y, b = [x; y] /\ 0 <= x < 256 /\ 0 <= y < 256.
Proof.
  intros b [L B]. destruct b as [|x [|y [|z b]]]; try discriminate. exists x, y. split; auto. inversion B as [|? ? B1 B2]; subst. inversion B2; subst. auto.
Qed.
Lemma toyE_ok : cipher_ok 2 toyE.
Proof.
  intros b Hb. destruct (two_bytes b Hb) as (x & y & -> & Hx & Hy). split; [reflexivity|]. unfold toyE. cbn [nth]. constructor; [apply Z.mod_pos_bound; lia|].
  constructor; [|constructor]. apply (lxor_range 8 x 90); lia.
Qed.
Lemma toyD_ok : cipher_ok 2 toyD.
Proof.
  intros b Hb. destruct (two_bytes b Hb) as (x & y & -> & Hx & Hy). split; [reflexivity|]. unfold toyD. cbn [nth]. constructor; [apply (lxor_range 8 y 90); lia|].
  constructor; [apply Z.mod_pos_bound; lia|constructor].
Qed.
Lemma toy_inverse : inverse 2 toyE toyD.
Proof.
  intros b Hb. destruct (two_bytes b Hb) as (x & y & -> & Hx & Hy). unfold toyE, toyD. cbn [nth].
  rewrite Z.lxor_assoc, Z.lxor_nilpotent, Z.lxor_0_r. f_equal. f_equal. rewrite Zminus_mod_idemp_l. replace (y + 7 - 7) with y by lia. apply Z.mod_small. lia.
Qed.
Definition zmem : mem := fun _ => 0.
Lemma mem_ok_store : forall a l, bytes l -> mem_ok (store zmem a l).
Proof. intros. apply store_ok; auto. intros x. unfold byte, zmem. lia. Qed.
Ltac byte_list := repeat constructor; unfold byte; lia.
Ltac okc := split; [apply mem_ok_store; byte_list|split; [unfold regions_ok; cbn; lia|reflexivity]].

(** Two calls, the first in place, the second not. *)
Definition ex_calls : list call := [mkCall (store zmem 0 [10; 20; 30; 40]) 0 0 4; mkCall (store zmem 0 [50; 60]) 100 0 2].
Example ex_calls_ok : Forall (call_ok 2) ex_calls.
Proof. constructor; [okc|constructor; [okc|constructor]]. Qed.
Example C20_example :
  outs ex_calls (fst (run_calls (ecb_call toyE 2) tt ex_calls)) = [27; 80; 47; 68; 67; 104] /\
  outs ex_calls (fst (run_calls (cbc_enc_call toyE 2) [1; 2] ex_calls)) = [29; 81; 128; 89; 108; 232].
Proof. vm_compute. split; reflexivity. Qed.
Example C20_example_decrypt :
  let cs := [mkCall (store zmem 0 [29; 81]) 0 0 2; mkCall (store zmem 8 [128; 89; 108; 232]) 8 8 4] in
  Forall (call_ok 2) cs /\ outs cs (fst (run_calls (cbc_dec_call toyD 2) [1; 2] cs)) = [10; 20; 30; 40; 50; 60].
Proof. split; [constructor; [okc|constructor; [okc|constructor]]|vm_compute; reflexivity]. Qed.

(** C21: three bytes after the four-byte prefix; then decrypted. *)
Example C21_example :
  let m := store zmem 0 [50; 60; 70] in
  let r := snd (run_calls (cbc_enc_call toyE 2) [1; 2] [mkCall (store zmem 0 [10; 20; 30; 40]) 0 0 4]) in
  exists m' r', cts_encrypt_last toyE 2 m r None 100 0 3 = Some (m', r') /\ load m' 100 3 = cts_tail toyE 2 r [50; 60; 70] /\
    length (load m' 100 3) = 3%nat /\
    load (cts_decrypt_last toyD 2 (store zmem 0 (load m' 100 3)) r 100 0 3) 100 3 = [50; 60; 70].
Proof. eexists _, _. split; [reflexivity|]. vm_compute. repeat split; reflexivity. Qed.
Example C21_stolen_example :
  exists m1 r1, cts_encrypt_last toyE 2 (store zmem 0 [77]) [1; 2] (Some 50) 100 0 1 = Some (m1, r1) /\ load m1 100 1 = [1] /\
    load (cts_decrypt_last toyD 2 (store zmem 0 [1]) (load m1 50 2) 9 0 1) 9 1 = [77].
Proof. eexists _, _. split; [reflexivity|]. vm_compute. split; reflexivity. Qed.
(** C21 fails in place: ProcessLastBlock with output = input stores the tail over input it still has to read. *)
Theorem C21_in_place_refuted :
  (exists m m' r', mem_ok m /\ cts_encrypt_last toyE 2 m [1; 2] None 0 0 3 = Some (m', r') /\
     load m' 0 3 <> cts_spec toyE 2 [1; 2] (load m 0 3)) /\
  (exists m, mem_ok m /\ load m 0 3 = cts_spec toyE 2 [1; 2] [50; 60; 70] /\ load (cts_decrypt_last toyD 2 m [1; 2] 0 0 3) 0 3 <> [50; 60; 70]).
Proof.
  split.
  - exists (store zmem 0 [50; 60; 70]). eexists _, _. split; [apply mem_ok_store; byte_list|]. split; [reflexivity|]. vm_compute. discriminate.
  - exists (store zmem 0 (cts_spec toyE 2 [1; 2] [50; 60; 70])). split; [apply mem_ok_store; vm_compute; repeat constructor; discriminate|]. split; [vm_compute; reflexivity|].
    vm_compute. discriminate.
Qed.

(** C22: one-byte and two-byte feedback; calls of odd lengths; a refused and an accepted Resynchronize. *)
Definition ex_fops : list fop :=
  [FProcess true (mkCall (store zmem 0 [10; 20; 30]) 0 0 3); FResync [5]; FProcess false (mkCall (store zmem 0 [40; 50]) 9 0 2);
   FResync [7; 8]; FProcess true (mkCall (store zmem 0 [10; 20; 30; 40; 50]) 100 0 5)].
Example ex_fops_ok : Forall fop_ok ex_fops.
Proof. unfold ex_fops. repeat (constructor; [cbn [fop_ok]; first [okc | byte_list]|]). constructor. Qed.
Definition fload (op : fop) (o : fout) : list Z := match op, o with FProcess _ c, FMem m => load m (cl_out c) (cl_len c) | _, _ => [] end.
Example C22_example : block_ok 2 [1; 2] /\
  map (fun p => fload (fst p) (snd p)) (combine ex_fops (cfb_ops toyE 2 2 true (cfb_resync toyE 2 [1; 2]) ex_fops)) =
    [[3; 79; 72]; []; [113; 74]; []; [5; 73; 78; 119; 76]] /\
  map (fun p => fload (fst p) (snd p)) (combine ex_fops (cfb_ops toyE 2 1 true (cfb_resync toyE 1 [1; 2]) ex_fops)) =
    [[3; 30; 59]; []; [106; 67]; []; [5; 24; 1; 32; 21]].
Proof. split; [split; [reflexivity|byte_list]|]. vm_compute. split; reflexivity. Qed.

(** C23-C26: process, generate, seek, resynchronize on CTR with a two-byte counter that wraps. *)
Definition toy_ctr := ctr_policy toyE 2 1.
Definition ex_sops : list sop :=
  [SProcess (store zmem 0 [10; 20; 30]) 0 0 3; SGenerate zmem 0 2; SSeek 3; SGenerate zmem 0 2; SResync [0; 9] zmem; SGenerate zmem 5 4].
Example ex_sops_ok : Forall sop_ok ex_sops.
Proof.
  unfold ex_sops. repeat (constructor; [first [exact I | cbn [sop_ok]; unfold regions_ok; lia | cbn [sop_ok]; byte_list]|]). constructor.
Qed.
Definition sload (op : sop) (o : sout) : list Z :=
  match op, o with SProcess _ out _ len, SMem m | SGenerate _ out len, SMem m => load m out len | _, _ => [] end.
Example C23_example : forall p, block_ok 2 [255; 255] /\
  map (fun q => sload (fst q) (snd q)) (combine ex_sops (ac_run toy_ctr (ac_setkey toy_ctr p [255; 255] zmem) ex_sops)) =
    [[12; 177; 25]; [90; 8]; []; [90; 8]; []; [16; 90; 17; 90]].
Proof. intros p. split; [split; [reflexivity|byte_list]|]. vm_compute. reflexivity. Qed.
Example C24_example : pl_seek toy_ctr <> None /\ iv_after 2 [255; 255] [SGenerate zmem 0 3; SResync [0; 9] zmem] = [0; 9].
Proof. split; [discriminate|reflexivity]. Qed.
Example C25_example : inc_counter [1; 255; 255] 3 = [2; 0; 0] /\ inc_counter [255; 255] 2 = [0; 0] /\
  ctr_seek_loop [1; 2; 250] 3 66000 0 [0; 0; 0] = [2; 4; 202].
Proof. vm_compute. repeat split; reflexivity. Qed.
Example C26_example : length [0; 9] = pl_ivsize toy_ctr /\ bytes [0; 9].
Proof. split; [reflexivity|byte_list]. Qed.
(** C26 fails for a refused IV: Resynchronize with an IV of the wrong length throws, but has already dropped the rest of
    the current keystream block. *)
Theorem C26_refused_iv_refuted : forall p,
  match ac_run toy_ctr (ac_setkey toy_ctr p [1; 2] zmem) [SGenerate zmem 0 1; SResync [5] zmem; SGenerate zmem 0 1] with
  | [SMem a; SRefused; SMem b] => load a 0 1 = load (keystream (ctr_block toyE 2 [1; 2]) 2) 0 1 /\ load b 0 1 <> load (keystream (ctr_block toyE 2 [1; 2]) 2) 1 1
  | _ => False
  end.
Proof. intros p. vm_compute. split; [reflexivity|discriminate]. Qed.

Print Assumptions C20_ecb_history. Print Assumptions C20_cbc_encrypt_history. Print Assumptions C20_cbc_decrypt_history.
Print Assumptions C20_ecb_round_trip. Print Assumptions C20_cbc_round_trip.
Print Assumptions C21_cts_encrypt. Print Assumptions C21_cts_round_trip. Print Assumptions C21_stolen_iv_round_trip.
Print Assumptions C21_short_refused. Print Assumptions C21_in_place_refuted.
Print Assumptions C22_cfb_history. Print Assumptions C22_cfb_round_trip. Print Assumptions C22_cfb_objects_round_trip.
Print Assumptions C22_additive_round_trip. Print Assumptions C22_ofb_round_trip. Print Assumptions C22_ctr_round_trip.
Print Assumptions C23_additive_history. Print Assumptions C23_ofb_history. Print Assumptions C23_ctr_history.
Print Assumptions C24_seek. Print Assumptions C24_ctr_seek. Print Assumptions C24_seek_is_discard.
Print Assumptions C25_ctr_blocks. Print Assumptions C25_increment. Print Assumptions C25_seek_iteration.
Print Assumptions C26_resynchronize. Print Assumptions C26_cfb_resynchronize. Print Assumptions C26_refused_iv_refuted.
