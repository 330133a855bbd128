(** Histories of the four modes; messages supplied in pieces. *)
From Coq Require Import ZArith List Bool Arith Lia.
From Verif Require Import Base Blocks HashModel ModesModel MacModel MacSpec MacProofs PolicyProofs Poly1305Model AeadModel AeadSpec AeadProofs AeadGcmProofs AeadCcmProofs AeadEaxProofs AeadChaProofs.
Import ListNotations.
Local Open Scope Z_scope.

Lemma arun_app : forall M (md : mode M) f ops1 ops2 b,
  arun md f b (ops1 ++ ops2) = (fst (arun md f (fst (arun md f b ops1)) ops2), snd (arun md f b ops1) ++ snd (arun md f (fst (arun md f b ops1)) ops2)).
Proof.
  induction ops1 as [|op ops1 IH]; intros ops2 b; [cbn [app arun fst snd]; destruct (arun md f b ops2); reflexivity|].
  cbn [app arun]. destruct (astep md f b op) as [b1 o]. rewrite IH. destruct (arun md f b1 ops1) as [b2 os]. cbn [fst snd app]. reflexivity.
Qed.
Lemma spec_app : forall id f ops1 ops2 ph, spec_arun id f ph (ops1 ++ ops2) = spec_arun id f ph ops1 ++ spec_arun id f (spec_phase id f ph ops1) ops2.
Proof.
  induction ops1 as [|op ops1 IH]; intros ops2 ph; [reflexivity|]. cbn [app spec_arun spec_phase]. destruct (spec_astep id f ph op) as [ph1 x]. cbn [fst]. rewrite IH. reflexivity.
Qed.
Lemma spec_length : forall id f ops ph, length (spec_arun id f ph ops) = length ops.
Proof. induction ops as [|op ops IH]; intros ph; [reflexivity|]. cbn [spec_arun]. destruct (spec_astep id f ph op). cbn [length]. rewrite IH. reflexivity. Qed.
Lemma arun_length : forall M (md : mode M) f ops b, length (snd (arun md f b ops)) = length ops.
Proof. induction ops as [|op ops IH]; intros b; [reflexivity|]. cbn [arun]. destruct (astep md f b op) as [b1 o]. specialize (IH b1). destruct (arun md f b1 ops). cbn [snd length] in *. rewrite IH. reflexivity. Qed.
Lemma forall2_app_r : forall (A C : Type) (R : A -> C -> Prop) l1 l2 m1 m2, length l1 = length m1 -> Forall2 R (l1 ++ l2) (m1 ++ m2) -> Forall2 R l2 m2.
Proof.
  induction l1 as [|x l1 IH]; intros l2 [|y m1] m2 E H; try discriminate E; [exact H|]. inversion H; subst. injection E as E. eapply IH; eauto.
Qed.
Lemma meets_out : forall l l', Forall2 meets (map XOut l) l' -> l' = l.
Proof. induction l as [|x l IH]; intros l' H; inversion H; subst; [reflexivity|]. cbn [meets] in *. subst. f_equal. auto. Qed.

(** Every object, whatever was done to it before. *)
Theorem aead_history : forall M (md : mode M) id b, aead md id b -> forall forward ops, Forall aop_ok ops ->
  Forall2 meets (spec_arun id forward (PNone true) ops) (snd (arun md forward b ops)).
Proof.
  intros M md id b H forward ops Hok. destruct H as [e gmul junk hash c He Hg Lj Bj|e t junk cbc c He Ht Lj Bj Lc|e B p junk n c He Hp Bj|cblock ivsize junk m Hc Bj La Ba Hi].
  - apply (history _ _ forward _ _ _ _ _ _ (gcm_laws e gmul He Hg)); auto.
    split; [intros _; split; [cbn; lia|]; repeat split; auto|]. split; [reflexivity|]. split; [exact Lj|]. split; [exact Bj|]. split; [exact I|]. intros _. cbn. lia.
  - apply (history _ _ forward _ _ _ _ _ _ (ccm_laws e t He Ht)); auto.
    split; [intros _; split; [cbn; lia|]; repeat split; auto|]. split; [reflexivity|]. split; [exact Lj|]. split; [exact Bj|]. split; [exact Lc|]. intros _. cbn. lia.
  - assert (HB : B <> 0%nat) by (intros ->; discriminate Hp).
    apply (history _ _ forward _ _ _ _ _ _ (eax_laws e B p HB Hp He (length junk))); auto.
    split; [intros X; discriminate X|]. split; [reflexivity|]. split; [reflexivity|]. split; [exact Bj|]. split; [|intros _; cbn; lia].
    apply (cm_setkey_spec (fun _ => e) B); [exact HB|intros _; exact He].
  - apply (history _ _ forward _ _ _ _ _ _ (chp_laws cblock ivsize Hc (length junk))); auto.
    split; [intros _; split; [cbn; lia|]; repeat split; auto|]. split; [reflexivity|]. split; [reflexivity|]. split; [exact Bj|]. split; [repeat split; auto|]. intros _. cbn. lia.
Qed.

Section Pieces.
  Variable id : ideal.
  Variable forward : bool.
  Lemma spec_header : forall hs iv l hdr rest, len64 (hdr ++ concat hs) < 2 ^ 64 ->
    spec_arun id forward (PHead iv l hdr) (map AUpdate hs ++ rest) = map XOut (map (fun _ => ODone) hs) ++ spec_arun id forward (PHead iv l (hdr ++ concat hs)) rest.
  Proof.
    induction hs as [|d hs IH]; intros iv l hdr rest H; cbn [map app concat] in *; [rewrite app_nil_r; reflexivity|]. cbn [spec_arun spec_astep].
    assert (E : spec_update id (PHead iv l hdr) d = (PHead iv l (hdr ++ d), XOut ODone)).
    { unfold spec_update. destruct (Nat.eqb_spec (length d) 0) as [Z0|Z0]; [apply length_zero_iff_nil in Z0; subst; rewrite app_nil_r; reflexivity|].
      destruct (Z.ltb_spec (len64 (hdr ++ d)) (2 ^ 64)) as [|X]; [reflexivity|]. rewrite !len64_app in *. pose proof (len64_nonneg (concat hs)). lia. }
    rewrite E, IH by (rewrite <- app_assoc; exact H). rewrite <- app_assoc. reflexivity.
  Qed.
  Lemma spec_body : forall ms iv l hdr inp rest, len64 (inp ++ concat ms) <= i_maxm id iv ->
    exists outs, spec_arun id forward (PBody iv l hdr inp) (map AProcess ms ++ rest) = map XOut (map OBytes outs) ++ spec_arun id forward (PBody iv l hdr (inp ++ concat ms)) rest /\
      concat outs = i_crypt id iv (length inp) (concat ms) /\ map (@length Z) outs = map (@length Z) ms.
  Proof.
    induction ms as [|d ms IH]; intros iv l hdr inp rest H; cbn [map app concat] in *; [exists []; rewrite app_nil_r; repeat split|]. cbn [spec_arun spec_astep].
    assert (E : spec_process id (PBody iv l hdr inp) d = (PBody iv l hdr (inp ++ d), XOut (OBytes (i_crypt id iv (length inp) d)))).
    { unfold spec_process. destruct (Z.ltb_spec (i_maxm id iv) (len64 inp + len64 d)); [|reflexivity]. rewrite !len64_app in *. pose proof (len64_nonneg (concat ms)). lia. }
    rewrite E. destruct (IH iv l hdr (inp ++ d) rest ltac:(rewrite <- app_assoc; exact H)) as (outs & E1 & E2 & E3).
    exists (i_crypt id iv (length inp) d :: outs). cbn [map app concat]. rewrite E1, <- app_assoc, E2, E3, crypt_app, app_length, crypt_length. repeat split.
  Qed.
  (** A message from its IV to its tag, in pieces. *)
  Lemma spec_message : forall ph iv l hs ms lst, (match ph with PNone _ => True | _ => i_fresh id = true end) ->
    i_fits id iv (concat hs) (concat ms) -> i_maxh id < 2 ^ 64 -> i_announced id iv l (concat hs) (concat ms) ->
    exists outs, concat outs = i_crypt id iv 0 (concat ms) /\ map (@length Z) outs = map (@length Z) ms /\
      spec_arun id forward ph (AStart iv l :: map AUpdate hs ++ map AProcess ms ++ [lst]) =
        map XOut (ODone :: map (fun _ => ODone) hs ++ map OBytes outs) ++
        [snd (spec_astep id forward (match ms with [] => PHead iv l (concat hs) | _ => PBody iv l (concat hs) (concat ms) end) lst)] /\
      right_h id l (concat hs) = true /\ right_m id l (concat ms) = true.
  Proof.
    intros ph iv l hs ms lst Hph (F1 & F2 & F3) Hmax Ha.
    assert (Eph : (match ph with PNone _ => true | _ => i_fresh id end) = true) by (destruct ph; auto).
    assert (R : right_h id l (concat hs) = true /\ right_m id l (concat ms) = true).
    { unfold right_h, right_m. destruct l as [[h m]|]; cbn [i_announced] in Ha; [|rewrite Ha; auto]. destruct (i_needs id); [|auto]. destruct Ha as (_ & _ & Ha).
      destruct (Ha eq_refl) as [-> ->]. cbn [negb orb]. rewrite !Z.eqb_refl. auto. }
    assert (S : spec_start id ph iv l = (PHead iv l [], XOut ODone)).
    { unfold spec_start. rewrite Eph, F1. destruct l as [[h m]|]; cbn [i_announced] in Ha; [|rewrite Ha; reflexivity]. destruct Ha as (A1 & A2 & _).
      destruct (Z.ltb_spec (i_maxh id) h), (Z.ltb_spec (i_maxm id iv) m); try lia. reflexivity. }
    cbn [spec_arun spec_astep]. rewrite S, spec_header by (cbn [app]; lia). cbn [app]. destruct R as [R1 R2].
    destruct ms as [|d ms].
    - exists []. cbn [map app concat]. cbn [spec_arun]. destruct (spec_astep id forward _ lst) as [ph1 x]. cbn [snd]. rewrite app_nil_r. repeat split; auto. 
    - cbn [map app concat spec_arun spec_astep spec_process]. cbn [concat] in *. rewrite R1. rewrite len64_app in F3. pose proof (len64_nonneg (concat ms)). pose proof (len64_nonneg d).
      destruct (Z.ltb_spec (i_maxm id iv) (len64 d)); [lia|].
      destruct (spec_body ms iv l (concat hs) d [lst] ltac:(rewrite len64_app; lia)) as (outs & E1 & E2 & E3). rewrite E1.
      exists (i_crypt id iv 0 d :: outs). cbn [concat map]. rewrite E2, E3, crypt_app. cbn [Nat.add]. split; [reflexivity|]. split; [rewrite crypt_length; reflexivity|]. split; [|auto].
      cbn [spec_arun]. destruct (spec_astep id forward _ lst) as [ph1 x]. cbn [snd]. cbn [app]. rewrite !map_app. cbn [map]. rewrite <- app_assoc. reflexivity.
  Qed.
  Lemma text_nil : forall iv, i_text id forward iv [] = [].
  Proof. intros. unfold i_text, i_crypt. destruct (Bool.eqb _ _); reflexivity. Qed.
  Lemma final_out : forall iv l hs ms n, i_fits id iv (concat hs) (concat ms) -> right_h id l (concat hs) = true -> right_m id l (concat ms) = true -> (n <= i_digest id)%nat ->
    snd (spec_final id forward (match ms with [] => PHead iv l (concat hs) | _ => PBody iv l (concat hs) (concat ms) end) n) = XOut (OBytes (firstn n (i_tag id iv (concat hs) (i_text id forward iv (concat ms))))).
  Proof.
    intros iv l hs ms n (F1 & F2 & F3) R1 R2 Hn. unfold spec_final. rewrite (proj2 (Nat.ltb_ge _ _)) by exact Hn.
    destruct ms as [|d ms]; (destruct (Z.ltb_spec (i_maxh id) (len64 (concat hs))); [lia|]).
    - cbn [concat] in *. rewrite R1, R2, text_nil. reflexivity.
    - rewrite R2. reflexivity.
  Qed.
End Pieces.

Lemma aead_max : forall M (md : mode M) id b, aead md id b -> i_maxh id < 2 ^ 64.
Proof. intros M md id b H. destruct H; cbn [gcm_ideal ccm_ideal eax_ideal chp_ideal i_maxh]; lia. Qed.
Lemma crypt_crypt : forall id iv p d, i_crypt id iv p (i_crypt id iv p d) = d.
Proof.
  intros. unfold i_crypt at 1. rewrite crypt_length. unfold i_crypt. apply xorl_cancel. rewrite map_length, seq_length. reflexivity.
Qed.

Definition msg_ok (iv : list Z) (hs ms : list (list Z)) : Prop := bytes iv /\ Forall bytes hs /\ Forall bytes ms.
Lemma msg_ops_ok : forall iv l hs ms lst h m, msg_ok iv hs ms -> aop_ok lst -> match l with Some (x, y) => 0 <= x <= h /\ 0 <= y <= m | None => True end -> h < 2 ^ 64 -> m < 2 ^ 64 ->
  Forall aop_ok (AStart iv l :: map AUpdate hs ++ map AProcess ms ++ [lst]).
Proof.
  intros iv l hs ms lst h m (A & B & C) D E Hh Hm. constructor; [split; [exact A|]; destruct l as [[x y]|]; [lia|exact I]|].
  apply Forall_app. split; [|apply Forall_app; split; [|constructor; [exact D|constructor]]]; apply Forall_forall; intros op Hop; apply in_map_iff in Hop; destruct Hop as (d & <- & Hd); cbn [aop_ok];
    [rewrite Forall_forall in B; apply B|rewrite Forall_forall in C; apply C]; exact Hd.
Qed.
Lemma aead_maxm : forall M (md : mode M) id b, aead md id b -> forall iv, i_iv_ok id (length iv) = true -> i_maxm id iv < 2 ^ 64.
Proof.
  intros M md id b H iv Hiv. destruct H; cbn [gcm_ideal ccm_ideal eax_ideal chp_ideal i_maxm i_iv_ok] in *; try lia.
  apply andb_prop in Hiv. destruct Hiv as [V1 V2]. apply Nat.leb_le in V1. apply Nat.leb_le in V2.
  pose proof (Z.pow_le_mono_r 2 (8 * Z.of_nat (ccm_q iv)) 64 ltac:(lia) ltac:(unfold ccm_q; lia)). lia.
Qed.

(** A message in pieces after any admissible history. *)
Lemma message_run : forall M (md : mode M) id b, aead md id b -> forall forward ops0, i_ready id forward ops0 ->
  forall iv l hs ms lst, msg_ok iv hs ms -> aop_ok lst -> i_fits id iv (concat hs) (concat ms) -> i_announced id iv l (concat hs) (concat ms) ->
  exists outs o, concat outs = i_crypt id iv 0 (concat ms) /\ map (@length Z) outs = map (@length Z) ms /\
    right_h id l (concat hs) = true /\ right_m id l (concat ms) = true /\
    snd (arun md forward (fst (arun md forward b ops0)) (AStart iv l :: map AUpdate hs ++ map AProcess ms ++ [lst])) =
      ODone :: map (fun _ => ODone) hs ++ map OBytes outs ++ [o] /\
    meets (snd (spec_astep id forward (match ms with [] => PHead iv l (concat hs) | _ => PBody iv l (concat hs) (concat ms) end) lst)) o.
Proof.
  intros M md id b A forward ops0 (R1 & R2) iv l hs ms lst Hok Hl Hf Ha.
  pose proof (aead_max _ _ _ _ A) as Hx. pose proof (aead_maxm _ _ _ _ A iv (proj1 Hf)) as Hy.
  assert (Hok2 : Forall aop_ok (AStart iv l :: map AUpdate hs ++ map AProcess ms ++ [lst])).
  { eapply msg_ops_ok with (h := i_maxh id) (m := i_maxm id iv); auto. destruct l as [[x y]|]; [|exact I]. cbn [i_announced] in Ha. tauto. }
  pose proof (aead_history _ _ _ _ A forward (ops0 ++ (AStart iv l :: map AUpdate hs ++ map AProcess ms ++ [lst])) ltac:(apply Forall_app; auto)) as H.
  rewrite spec_app, arun_app in H. cbn [snd] in H. apply forall2_app_r in H; [|rewrite spec_length, arun_length; reflexivity].
  destruct (spec_message id forward (spec_phase id forward (PNone true) ops0) iv l hs ms lst R2 Hf Hx Ha) as (outs & E1 & E2 & E3 & E4 & E5).
  rewrite E3 in H. set (res := snd (arun _ _ _ _)) in *.
  apply Forall2_app_inv_l in H. destruct H as (r1 & r2 & H1 & H2 & E). apply meets_out in H1. subst r1. inversion H2 as [|x y ? ? Hm Hn]; subst. inversion Hn; subst.
  exists outs, y. split; [exact E1|]. split; [exact E2|]. split; [exact E4|]. split; [exact E5|]. split; [|exact Hm].
  rewrite E. cbn [app]. rewrite <- app_assoc. reflexivity.
Qed.

(** The loop of GCTR puts out the blocks that [ctr_after] describes. *)
Lemma after_after : forall v a b, ctr_after true 16 (ctr_after true 16 v a) b = ctr_after true 16 v (a + b).
Proof.
  intros v a b. unfold ctr_after. set (h := v / 2 ^ 32). set (l := v mod 2 ^ 32).
  pose proof (Z.mod_pos_bound (l + Z.of_nat a) (2 ^ 32) ltac:(lia)) as Hb. set (x := (l + Z.of_nat a) mod 2 ^ 32) in *.
  rewrite Z.div_add_l, (Z.div_small x), Z.add_0_r by lia. f_equal. rewrite (Z.add_comm (h * 2 ^ 32)), Z.mod_add, (Z.mod_small x) by lia. unfold x.
  rewrite Zplus_mod_idemp_l. f_equal. lia.
Qed.
Lemma word_16 : forall h m y, 0 <= h -> 0 <= m < 2 ^ 24 -> 0 <= y < 256 -> be_bytes 16 (h * 2 ^ 32 + (m * 256 + y)) = be_bytes 12 h ++ be_bytes 3 m ++ [y].
Proof.
  intros h m y Hh Hm Hy. change 16%nat with (12 + 4)%nat. change (2 ^ 32) with (256 ^ Z.of_nat 4). rewrite be_bytes_cat by (try exact Hh; change (256 ^ Z.of_nat 4) with (2 ^ 32); lia).
  f_equal. change 4%nat with (3 + 1)%nat. change 256 with (256 ^ Z.of_nat 1). rewrite be_bytes_cat by (try exact (proj1 Hm); change (256 ^ Z.of_nat 1) with 256; lia).
  f_equal. change [y] with ([] ++ [y]). rewrite be_bytes_snoc, Z.mod_small by lia. reflexivity.
Qed.
Lemma gctr_step : forall c k, length c = 16%nat -> bytes c -> nth 15 c 0 + Z.of_nat k <= 256 ->
  let c1 := upd 15 ((nth 15 c 0 + Z.of_nat k) mod 256) c in
  (nth 15 c 0 + Z.of_nat k < 256 -> c1 = be_bytes 16 (ctr_after true 16 (be_val c) k)) /\
  ((0 < k)%nat ->
   (if nth 15 c1 0 =? 0 then firstn 12 c1 ++ inc_counter (firstn 3 (skipn 12 c1)) 3 ++ skipn 15 c1 else c1) = be_bytes 16 (ctr_after true 16 (be_val c) k)).
Proof.
  intros c k Lc Bc Hk.
  assert (Ec : exists h m x, c = be_bytes 12 h ++ be_bytes 3 m ++ [x] /\ 0 <= h < 2 ^ 96 /\ 0 <= m < 2 ^ 24 /\ 0 <= x < 256).
  { exists (be_val (firstn 12 c)), (be_val (firstn 3 (skipn 12 c))), (nth 15 c 0).
    assert (L1 : length (firstn 12 c) = 12%nat) by (apply firstn_length_le; lia). assert (L2 : length (firstn 3 (skipn 12 c)) = 3%nat) by (apply firstn_length_le; rewrite skipn_length; lia).
    pose proof (bytes_firstn 12 c Bc) as B1. pose proof (bytes_firstn 3 _ (bytes_skipn 12 c Bc)) as B2.
    pose proof (be_val_bounds _ B1) as X1. pose proof (be_val_bounds _ B2) as X2. rewrite L1 in X1. rewrite L2 in X2.
    split; [|split; [exact X1|split; [exact X2|]]].
    - pose proof (be_bytes_val _ B1) as Y1. pose proof (be_bytes_val _ B2) as Y2. rewrite L1 in Y1. rewrite L2 in Y2. rewrite Y1, Y2.
      do 17 (destruct c as [|? c]; try discriminate Lc). reflexivity.
    - pose proof (nth_bytes c 15 Bc) as X. exact X. }
  destruct Ec as (h & m & x & -> & Hh & Hm & Hx).
  assert (Ev : be_val (be_bytes 12 h ++ be_bytes 3 m ++ [x]) = h * 2 ^ 32 + (m * 256 + x)).
  { rewrite <- word_16 by lia. rewrite be_val_be_bytes; [reflexivity|]. change (256 ^ Z.of_nat 16) with (2 ^ 96 * 2 ^ 32). nia. }
  rewrite Ev. set (p := be_bytes 12 h) in *. set (q := be_bytes 3 m) in *.
  assert (Lp : length p = 12%nat) by apply be_bytes_length. assert (Lq : length q = 3%nat) by apply be_bytes_length.
  assert (U : forall y, upd 15 y (p ++ q ++ [x]) = p ++ q ++ [y]).
  { intros y. do 13 (destruct p as [|? p]; try discriminate Lp). do 4 (destruct q as [|? q]; try discriminate Lq). reflexivity. }
  assert (Nx : forall y, nth 15 (p ++ q ++ [y]) 0 = y).
  { intros y. clear - Lp Lq. do 13 (destruct p as [|? p]; try discriminate Lp). do 4 (destruct q as [|? q]; try discriminate Lq). reflexivity. }
  rewrite U, !Nx in *. cbv zeta. unfold ctr_after. rewrite Z.div_add_l, (Z.div_small (m * 256 + x)), Z.add_0_r by lia.
  rewrite (Z.add_comm (h * 2 ^ 32) (m * 256 + x)), Z.mod_add, (Z.mod_small (m * 256 + x)) by lia. split.
  - intros H. rewrite (Z.mod_small (x + Z.of_nat k)), (Z.mod_small (m * 256 + x + Z.of_nat k)) by lia. rewrite <- Z.add_assoc, word_16 by lia. reflexivity.
  - intros H0. destruct (Z.eq_dec (x + Z.of_nat k) 256) as [E|E].
    + rewrite E. change (256 mod 256) with 0. rewrite Nx. change (0 =? 0) with true. cbv iota.
      assert (F12 : firstn 12 (p ++ q ++ [0]) = p) by (rewrite <- Lp; apply firstn_app_exact). assert (S12 : skipn 12 (p ++ q ++ [0]) = q ++ [0]) by (rewrite <- Lp; apply skipn_app_exact).
      assert (F3 : firstn 3 (q ++ [0]) = q) by (rewrite <- Lq; apply firstn_app_exact). rewrite F12, S12, F3.
      replace (skipn 15 (p ++ q ++ [0])) with [0] by (clear - Lp Lq; do 13 (destruct p as [|? p]; try discriminate Lp); do 4 (destruct q as [|? q]; try discriminate Lq); reflexivity).
      pose proof (inc_counter_spec 3 m []) as I3. rewrite !app_nil_r in I3. fold q in I3. rewrite I3.
      replace (m * 256 + x + Z.of_nat k) with ((m + 1) * 256) by lia. change (2 ^ 32) with (2 ^ 24 * 256). rewrite Z.mul_mod_distr_r by lia.
      pose proof (Z.mod_pos_bound (m + 1) (2 ^ 24) ltac:(lia)) as Hb. rewrite <- (Z.add_0_r ((m + 1) mod 2 ^ 24 * 256)). change (2 ^ 24 * 256) with (2 ^ 32). rewrite word_16 by lia.
      f_equal. f_equal. apply be_val_inj; try apply be_bytes_bytes; [rewrite !be_bytes_length; reflexivity|]. rewrite !be_val_bytes_mod. change (256 ^ Z.of_nat 3) with (2 ^ 24). rewrite Z.mod_mod by lia. reflexivity.
    + rewrite (Z.mod_small (x + Z.of_nat k)) by lia. rewrite Nx. destruct (Z.eqb_spec (x + Z.of_nat k) 0); [lia|].
      rewrite (Z.mod_small (m * 256 + x + Z.of_nat k)) by lia. rewrite <- Z.add_assoc, word_16 by lia. reflexivity.
Qed.
Lemma seq_from : forall k n, seq k n = map (fun j => (k + j)%nat) (seq 0 n).
Proof.
  intros k n. revert k. induction n as [|n IH]; intros k; [reflexivity|]. cbn [seq map]. rewrite Nat.add_0_r. f_equal. rewrite (IH (S k)), (IH 1%nat), map_map.
  apply map_ext. intros j. lia.
Qed.
Theorem gctr_loop_spec : forall e fuel c n, length c = 16%nat -> bytes c -> (n <= fuel)%nat ->
  gctr_loop e fuel c n = (be_bytes 16 (ctr_after true 16 (be_val c) n), map (fun j => e (be_bytes 16 (ctr_after true 16 (be_val c) j))) (seq 0 n)).
Proof.
  assert (Z0 : forall c, length c = 16%nat -> bytes c -> be_bytes 16 (ctr_after true 16 (be_val c) 0) = c).
  { intros c Lc Bc. pose proof (be_val_bounds c Bc) as X. rewrite Lc in X. rewrite ctr_after_0 by exact X. rewrite <- Lc. apply be_bytes_val. exact Bc. }
  intros e. induction fuel as [|f IH]; intros c n Lc Bc Hn.
  - assert (n = 0%nat) by lia. subst n. cbn [gctr_loop seq map]. rewrite Z0 by auto. reflexivity.
  - cbn [gctr_loop]. destruct (Nat.eqb_spec n 0) as [->|N0]; [cbn [seq map]; rewrite Z0 by auto; reflexivity|].
    pose proof (nth_bytes c 15 Bc) as Hx. unfold byte in Hx. set (lsb := nth 15 c 0) in *. set (k := Nat.min n (256 - Z.to_nat lsb)).
    assert (K1 : (0 < k)%nat) by (unfold k; lia). assert (K2 : lsb + Z.of_nat k <= 256) by (unfold k; lia). assert (K3 : (k <= n)%nat) by (unfold k; lia).
    pose proof (proj2 (gctr_step c k Lc Bc K2) K1) as G. fold lsb in G. rewrite G. rewrite IH; [|apply be_bytes_length|apply be_bytes_bytes|lia].
    assert (Ev : be_val (be_bytes 16 (ctr_after true 16 (be_val c) k)) = ctr_after true 16 (be_val c) k).
    { apply be_val_be_bytes. unfold ctr_after. pose proof (be_val_bounds c Bc) as X. rewrite Lc in X. change (256 ^ Z.of_nat 16) with (2 ^ 96 * 2 ^ 32) in *.
      pose proof (Z.mod_pos_bound (be_val c mod 2 ^ 32 + Z.of_nat k) (2 ^ 32) ltac:(lia)). pose proof (Z.div_pos (be_val c) (2 ^ 32) ltac:(lia) ltac:(lia)).
      pose proof (Z.div_lt_upper_bound (be_val c) (2 ^ 32) (2 ^ 96) ltac:(lia) ltac:(lia)). nia. }
    rewrite Ev. replace n with (k + (n - k))%nat at 4 by lia. rewrite seq_app, map_app. f_equal.
    + rewrite after_after. do 2 f_equal. lia.
    + f_equal.
      * apply map_ext_in. intros j Hj. apply in_seq in Hj. f_equal. apply (proj1 (gctr_step c j Lc Bc ltac:(fold lsb; lia))). fold lsb. lia.
      * cbn [Nat.add]. rewrite (seq_from k), map_map. apply map_ext. intros j. rewrite after_after. reflexivity.
Qed.
