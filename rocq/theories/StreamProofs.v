(** The additive cipher template: keystream position invariant. *)
From Coq Require Import ZArith List Bool Arith Lia.
From Verif Require Import Base Blocks Mem ModesModel ModesSpec.
Import ListNotations.
Local Open Scope Z_scope.

Section Effects.
  Variable KS : mem.
  Definition xored (m m' : mem) (out inp pos : Z) (n : nat) : Prop :=
    load m' out n = xorl (load m inp n) (load KS pos n) /\ same_outside m m' out n.
  Definition gend (m m' : mem) (out pos : Z) (n : nat) : Prop :=
    load m' out n = load KS pos n /\ same_outside m m' out n.

  Lemma xored_app : forall m m1 m2 out inp pos a b, xored m m1 out inp pos a ->
    xored m1 m2 (out + Z.of_nat a) (inp + Z.of_nat a) (pos + Z.of_nat a) b -> regions_ok inp out (a + b) ->
    xored m m2 out inp pos (a + b).
  Proof.
    intros m m1 m2 out inp pos a b [A1 A2] [B1 B2] R. split.
    - rewrite !load_app. rewrite xorl_app by (rewrite !load_length; reflexivity). f_equal.
      + rewrite <- A1. apply load_same with (out + Z.of_nat a) b; auto. right. lia.
      + rewrite B1. f_equal. apply load_same with out a; auto. destruct R as [R|[R|R]]; unfold disjoint; lia.
    - apply same_trans with m1; eapply same_weaken; eauto; lia.
  Qed.
  Lemma gend_app : forall m m1 m2 out pos a b, gend m m1 out pos a -> gend m1 m2 (out + Z.of_nat a) (pos + Z.of_nat a) b ->
    gend m m2 out pos (a + b).
  Proof.
    intros m m1 m2 out pos a b [A1 A2] [B1 B2]. split.
    - rewrite !load_app. f_equal; auto. rewrite <- A1. apply load_same with (out + Z.of_nat a) b; auto. right. lia.
    - apply same_trans with m1; eapply same_weaken; eauto; lia.
  Qed.
  Lemma xored_store : forall m out inp pos n ks, ks = load KS pos n -> xored m (store m out (xorl (load m inp n) ks)) out inp pos n.
  Proof.
    intros. subst. assert (L : n = length (xorl (load m inp n) (load KS pos n))) by (rewrite xorl_length, !load_length; lia). split.
    - apply load_store_same. exact L.
    - apply store_same_outside'. exact L.
  Qed.
  Lemma gend_store : forall m out pos n ks, ks = load KS pos n -> gend m (store m out ks) out pos n.
  Proof. intros. subst. split; [apply load_store_same; rewrite load_length; auto|]. apply store_same_outside'. rewrite load_length; auto. Qed.
  Lemma xored_0 : forall m out inp pos, xored m m out inp pos 0.
  Proof. intros. split; [reflexivity|apply same_refl]. Qed.
  Lemma gend_0 : forall m out pos, gend m m out pos 0.
  Proof. intros. split; [reflexivity|apply same_refl]. Qed.
End Effects.

Lemma round_up_spec : forall n b, b <> 0%nat -> exists k, round_up n b = (k * b)%nat /\ (n <= k * b)%nat /\ (k * b < n + b)%nat.
Proof.
  intros n b Hb. exists ((n + b - 1) / b)%nat. split; [reflexivity|].
  pose proof (Nat.div_mod (n + b - 1) b Hb). pose proof (Nat.mod_upper_bound (n + b - 1) b Hb). nia.
Qed.
Lemma regions_sub : forall i o n d, regions_ok i o n -> (d <= n)%nat -> regions_ok (i + Z.of_nat d) (o + Z.of_nat d) (n - d).
Proof. unfold regions_ok. intros. lia. Qed.
Lemma regions_le : forall i o n k, regions_ok i o n -> (k <= n)%nat -> regions_ok i o k.
Proof. unfold regions_ok. intros. lia. Qed.

Section Template.
  Context {P : Type}.
  Variable pl : policy P.
  Variable kb : list Z -> Z -> list Z.
  Variable keyed : P -> Prop.
  Variable prep : P -> list Z -> Z -> Prop.
  Hypothesis LAW : policy_law pl kb keyed prep.
  Notation bpi := (pl_bpi pl).
  Notation KS iv := (keystream (kb iv) bpi).

  (** [s] is at position [pos] of the keystream for [iv]. *)
  Definition arep (s : additive) (iv : list Z) (pos : Z) : Prop := exists i,
    prep (ac_p s) iv i /\ 0 <= pos /\ pos + Z.of_nat (ac_left s) = i * Z.of_nat bpi /\ (ac_left s < bpi)%nat /\
    (exists k, (ac_size s = k * bpi)%nat /\ k <> 0%nat) /\
    load (ac_buf s) (from_end s (ac_left s)) (ac_left s) = load (KS iv) pos (ac_left s).

  Let Hb : bpi <> 0%nat := law_bpi _ _ _ _ LAW.

  (** The same without leftover, and the buffer irrelevant. *)
  Lemma arep_fresh : forall p buf k iv i, prep p iv i -> 0 <= i -> k <> 0%nat -> arep (mkAC p buf (k * bpi) 0) iv (i * Z.of_nat bpi).
  Proof. intros p buf k iv i H1 H2 Hk. exists i. cbn [ac_p ac_left ac_size ac_buf]. repeat split; auto; try lia. exists k; auto. Qed.

  (** The final phase: a partial iteration through the buffer. *)
  Lemma partial_spec : forall p buf size iv i len, prep p iv i -> 0 <= i -> (exists k, (size = k * bpi)%nat /\ k <> 0%nat) ->
    (0 < len)%nat -> (len < size)%nat \/ (len < bpi)%nat ->
    let k := round_up len bpi in
    let a := Z.of_nat size - Z.of_nat k in
    let '(p', buf') := pl_write pl p buf a (k / bpi) in
    load buf' a len = load (KS iv) (i * Z.of_nat bpi) len /\
    arep (mkAC p' buf' size (k - len)) iv (i * Z.of_nat bpi + Z.of_nat len).
  Proof.
    intros p buf size iv i len Hp Hi (ks & Hs & Hk0) Hl Hsz k a.
    destruct (round_up_spec len bpi Hb) as (n & Ek & E1 & E2). fold k in Ek.
    assert (En : (k / bpi = n)%nat) by (rewrite Ek; apply Nat.div_mul; auto). rewrite En.
    assert (Hn : n <> 0%nat) by nia.
    pose proof (law_write _ _ _ _ LAW p iv i buf a n Hp Hi Hn) as W. destruct (pl_write pl p buf a n) as [p' buf'].
    destruct W as (W1 & W2 & W3). rewrite <- Ek in *.
    assert (Spl : (k = len + (k - len))%nat) by lia.
    split.
    - rewrite Spl in W2. rewrite !load_app in W2. apply app_inj_length in W2; [|rewrite !load_length; auto]. apply W2.
    - exists (i + Z.of_nat n). cbn [ac_p ac_left ac_size ac_buf]. split; auto. split; [lia|]. split; [|split; [|split]].
      + rewrite Ek. nia.
      + lia.
      + exists ks; auto.
      + unfold from_end. cbn [ac_size]. rewrite Spl in W2. rewrite !load_app in W2. apply app_inj_length in W2; [|rewrite !load_length; auto].
        destruct W2 as [_ W2]. rewrite <- W2. f_equal. unfold a. lia.
  Qed.

  Lemma ac_buffers_spec : forall fuel s m out inp len iv pos, arep s iv pos -> ac_left s = 0%nat -> (len <= fuel)%nat -> regions_ok inp out len ->
    let '(s', m', out', inp', len') := ac_buffers pl fuel s m out inp len in
    exists d, (d <= len)%nat /\ out' = out + Z.of_nat d /\ inp' = inp + Z.of_nat d /\ len' = (len - d)%nat /\
      xored (KS iv) m m' out inp pos d /\ arep s' iv (pos + Z.of_nat d) /\ ac_left s' = 0%nat /\ (len' < ac_size s')%nat.
  Proof.
    induction fuel as [|f IH]; intros s m out inp len iv pos Hr H0 Hf Hreg; cbn [ac_buffers].
    - assert (len = 0)%nat by lia. subst len. exists 0%nat. cbn [Z.of_nat]. rewrite !Z.add_0_r. repeat split; auto; try apply xored_0.
      destruct Hr as (i & _ & _ & _ & _ & (k & Hk & Hk0) & _). rewrite Hk. nia.
    - destruct Hr as (i & R1 & R2 & R3 & R4 & (k & Hk & Hk0) & R6).
      destruct (Nat.leb_spec (ac_size s) len) as [Hle|Hlt].
      + assert (Ed : (ac_size s / bpi = k)%nat) by (rewrite Hk; apply Nat.div_mul; auto). rewrite Ed.
        rewrite H0 in *. cbn [Z.of_nat] in R3. rewrite Z.add_0_r in R3.
        pose proof (law_write _ _ _ _ LAW (ac_p s) iv i (ac_buf s) 0 k R1 ltac:(nia) Hk0) as W.
        destruct (pl_write pl (ac_p s) (ac_buf s) 0 k) as [p' buf']. destruct W as (W1 & W2 & W3). rewrite <- Hk in W2. rewrite <- R3 in W2.
        assert (R' : arep (mkAC p' buf' (ac_size s) 0) iv (pos + Z.of_nat (ac_size s))).
        { replace (pos + Z.of_nat (ac_size s)) with ((i + Z.of_nat k) * Z.of_nat bpi) by (rewrite Hk; nia). rewrite Hk. apply arep_fresh; auto. nia. }
        assert (Kp : (0 < ac_size s)%nat) by (rewrite Hk; nia).
        specialize (IH (mkAC p' buf' (ac_size s) 0) (store m out (xorl (load m inp (ac_size s)) (load buf' 0 (ac_size s)))) (out + Z.of_nat (ac_size s)) (inp + Z.of_nat (ac_size s)) (len - ac_size s)%nat iv _ R' eq_refl ltac:(lia) ltac:(apply regions_sub; auto)).
        destruct (ac_buffers pl f _ _ _ _ _) as [[[[s' m'] out'] inp'] len'].
        destruct IH as (d & I1 & I2 & I3 & I4 & I5 & I6 & I7 & I8). exists (ac_size s + d)%nat.
        split; [lia|]. split; [lia|]. split; [lia|]. split; [lia|]. split; [|split; [|auto]].
        * eapply xored_app; [apply xored_store; exact W2|exact I5|eapply regions_le; eauto; lia].
        * replace (pos + Z.of_nat (ac_size s + d)) with (pos + Z.of_nat (ac_size s) + Z.of_nat d) by lia. exact I6.
      + exists 0%nat. cbn [Z.of_nat]. rewrite !Z.add_0_r. repeat split; auto; try lia.
        exists i. repeat split; auto. exists k; auto.
  Qed.

  Lemma left_part : forall s iv pos len, arep s iv pos -> (0 < ac_left s)%nat ->
    let l := Nat.min (ac_left s) len in
    load (ac_buf s) (from_end s (ac_left s)) l = load (KS iv) pos l /\
    arep (mkAC (ac_p s) (ac_buf s) (ac_size s) (ac_left s - l)) iv (pos + Z.of_nat l).
  Proof.
    intros s iv pos len (i & R1 & R2 & R3 & R4 & R5 & R6) H0 l.
    assert (Spl : (ac_left s = l + (ac_left s - l))%nat) by lia.
    rewrite Spl in R6 at 2 3. rewrite !load_app in R6. apply app_inj_length in R6; [|rewrite !load_length; auto]. destruct R6 as [R6a R6b].
    split; auto. exists i. cbn [ac_p ac_left ac_size ac_buf]. repeat split; auto; try lia.
    rewrite <- R6b. f_equal. unfold from_end. cbn [ac_size ac_left]. lia.
  Qed.

  Lemma ac_process_spec : forall s m out inp len iv pos, arep s iv pos -> regions_ok inp out len ->
    let '(s', m') := ac_process pl s m out inp len in xored (KS iv) m m' out inp pos len /\ arep s' iv (pos + Z.of_nat len).
  Proof.
    intros s m out inp len iv pos Hr Hreg. unfold ac_process.
    set (l := if Nat.ltb 0 (ac_left s) then Nat.min (ac_left s) len else 0%nat).
    set (m1 := if Nat.ltb 0 (ac_left s) then _ else m). 
    assert (P1 : xored (KS iv) m m1 out inp pos l /\ arep (mkAC (ac_p s) (ac_buf s) (ac_size s) (ac_left s - l)) iv (pos + Z.of_nat l) /\ (l <= len)%nat /\ (l = len \/ ac_left s - l = 0)%nat).
    { subst m1 l. destruct (Nat.ltb_spec 0 (ac_left s)).
      - destruct (left_part s iv pos len Hr H) as [L1 L2]. split; [apply xored_store; auto|]. split; auto. lia.
      - assert (E0 : ac_left s = 0%nat) by lia. split; [apply xored_0|]. cbn [Z.of_nat]. rewrite Z.add_0_r, Nat.sub_0_r. split; [destruct s; auto|lia]. }
    clearbody m1. destruct P1 as (X1 & A1 & Hl & Hd). set (s1 := mkAC (ac_p s) (ac_buf s) (ac_size s) (ac_left s - l)) in *.
    destruct (Nat.eqb_spec (len - l) 0) as [E|E].
    { assert (l = len) by lia. rewrite H in X1, A1. auto. }
    assert (H0 : ac_left s1 = 0%nat) by (cbn [s1 ac_left]; lia).
    set (len1 := (len - l)%nat) in *. set (out1 := out + Z.of_nat l). set (inp1 := inp + Z.of_nat l). set (pos1 := pos + Z.of_nat l) in *.
    assert (Hreg1 : regions_ok inp1 out1 len1) by (apply regions_sub; auto).
    set (op := pl_can pl && Nat.leb bpi len1).
    set (d := if op then (len1 / bpi * bpi)%nat else 0%nat).
    assert (Hdle : (d <= len1)%nat).
    { subst d. destruct op; [|lia]. pose proof (Nat.mul_div_le len1 bpi Hb). lia. }
    assert (P2 : let '(p2, m2) := if op then pl_operate pl (ac_p s1) m1 out1 inp1 (len1 / bpi) else (ac_p s1, m1) in
      xored (KS iv) m1 m2 out1 inp1 pos1 d /\ arep (mkAC p2 (ac_buf s1) (ac_size s1) (ac_left s1)) iv (pos1 + Z.of_nat d)).
    { destruct op eqn:Eop.
      - apply andb_prop in Eop. destruct Eop as [Ec El]. apply Nat.leb_le in El.
        destruct A1 as (i & R1 & R2 & R3 & R4 & R5 & R6). rewrite H0 in *. cbn [Z.of_nat] in R3. rewrite Z.add_0_r in R3.
        assert (Hn : (len1 / bpi <> 0)%nat) by (pose proof (Nat.div_str_pos len1 bpi); lia).
        pose proof (law_operate _ _ _ _ LAW Ec (ac_p s1) iv i m1 out1 inp1 (len1 / bpi) R1 ltac:(nia) Hn ltac:(eapply regions_le; eauto)) as W.
        destruct (pl_operate pl (ac_p s1) m1 out1 inp1 (len1 / bpi)) as [p2 m2]. destruct W as (W1 & W2 & W3).
        split. { split; auto. rewrite R3. exact W2. }
        destruct R5 as (k & Hk & Hk0). rewrite Hk.
        replace (pos1 + Z.of_nat d) with ((i + Z.of_nat (len1 / bpi)) * Z.of_nat bpi) by (unfold d; nia).
        apply arep_fresh; auto. nia.
      - split; [apply xored_0|]. cbn [d Z.of_nat]. unfold d. cbn [Z.of_nat]. rewrite Z.add_0_r. destruct s1; auto. }
    destruct (if op then pl_operate pl (ac_p s1) m1 out1 inp1 (len1 / bpi) else (ac_p s1, m1)) as [p2 m2]. destruct P2 as [X2 A2].
    set (s2 := mkAC p2 (ac_buf s1) (ac_size s1) (ac_left s1)) in *.
    pose proof (ac_buffers_spec len1 s2 m2 (out1 + Z.of_nat d) (inp1 + Z.of_nat d) (len1 - d) iv (pos1 + Z.of_nat d) A2 ltac:(exact H0) ltac:(lia) ltac:(apply regions_sub; auto)) as P3.
    destruct (ac_buffers pl len1 s2 m2 (out1 + Z.of_nat d) (inp1 + Z.of_nat d) (len1 - d)) as [[[[s3 m3] out3] inp3] len3].
    destruct P3 as (e & E1 & E2 & E3 & E4 & X3 & A3 & Z3 & L3).
    assert (X : xored (KS iv) m m3 out inp pos (l + (d + e))).
    { eapply xored_app; [exact X1| |eapply regions_le; eauto; lia]. eapply xored_app; [exact X2|exact X3|]. eapply regions_le; [exact Hreg1|lia]. }
    assert (Q : len3 = (len - (l + (d + e)))%nat) by lia.
    destruct (Nat.ltb_spec 0 len3) as [Hp|Hp].
    - destruct A3 as (i & R1 & R2 & R3 & R4 & R5 & R6). rewrite Z3 in *. cbn [Z.of_nat] in R3. rewrite Z.add_0_r in R3.
      pose proof (partial_spec (ac_p s3) (ac_buf s3) (ac_size s3) iv i len3 R1 ltac:(nia) R5 Hp ltac:(auto)) as W. cbv zeta in W.
      unfold from_end. destruct (pl_write pl (ac_p s3) (ac_buf s3) _ _) as [p4 buf4]. destruct W as [W1 W2]. rewrite <- R3 in W1, W2.
      cbn [ac_size].
      split.
      + replace len with ((l + (d + e)) + len3)%nat at 1 by lia. eapply xored_app; [exact X| |eapply regions_le; eauto; lia].
        replace (out + Z.of_nat (l + (d + e))) with out3 by (unfold out1 in *; lia).
        replace (inp + Z.of_nat (l + (d + e))) with inp3 by (unfold inp1 in *; lia).
        apply xored_store. rewrite W1. f_equal. unfold pos1. lia.
      + replace (pos + Z.of_nat len) with (pos1 + Z.of_nat d + Z.of_nat e + Z.of_nat len3) by (unfold pos1; lia). exact W2.
    - assert (Q' : (l + (d + e) = len)%nat) by lia. rewrite Q' in X. split; auto.
      replace (pos + Z.of_nat len) with (pos1 + Z.of_nat d + Z.of_nat e) by (unfold pos1; lia). exact A3.
  Qed.

  Lemma ac_generate_spec : forall s m out len iv pos, arep s iv pos ->
    let '(s', m') := ac_generate pl s m out len in gend (KS iv) m m' out pos len /\ arep s' iv (pos + Z.of_nat len).
  Proof.
    intros s m out len iv pos Hr. unfold ac_generate.
    set (l := if Nat.ltb 0 (ac_left s) then Nat.min (ac_left s) len else 0%nat).
    set (m1 := if Nat.ltb 0 (ac_left s) then _ else m). 
    assert (P1 : gend (KS iv) m m1 out pos l /\ arep (mkAC (ac_p s) (ac_buf s) (ac_size s) (ac_left s - l)) iv (pos + Z.of_nat l) /\ (l <= len)%nat /\ (l = len \/ ac_left s - l = 0)%nat).
    { subst m1 l. destruct (Nat.ltb_spec 0 (ac_left s)).
      - destruct (left_part s iv pos len Hr H) as [L1 L2]. split; [apply gend_store; auto|]. split; auto. lia.
      - assert (E0 : ac_left s = 0%nat) by lia. split; [apply gend_0|]. cbn [Z.of_nat]. rewrite Z.add_0_r, Nat.sub_0_r. split; [destruct s; auto|lia]. }
    clearbody m1. destruct P1 as (X1 & A1 & Hl & Hd). set (s1 := mkAC (ac_p s) (ac_buf s) (ac_size s) (ac_left s - l)) in *.
    set (len1 := (len - l)%nat) in *. set (out1 := out + Z.of_nat l). set (pos1 := pos + Z.of_nat l) in *.
    destruct (Nat.eq_dec len1 0) as [E|E].
    { assert (El : l = len) by lia. rewrite El in X1.
      assert (Ep : pos1 = pos + Z.of_nat len) by (unfold pos1; lia). rewrite Ep in A1.
      rewrite E. rewrite (proj2 (Nat.leb_gt bpi 0)) by lia.
      change (Nat.ltb 0 0) with false. cbv iota beta.
      match goal with |- context [if ?b then (s1, m1) else _] => destruct b end; auto. }
    rewrite (proj2 (Nat.eqb_neq len1 0)) by auto. rewrite andb_false_r.
    assert (H0 : ac_left s1 = 0%nat) by (cbn [s1 ac_left]; lia).
    set (c := Nat.leb bpi len1).
    set (d := if c then (len1 / bpi * bpi)%nat else 0%nat).
    assert (Hdle : (d <= len1)%nat /\ (len1 - d < bpi)%nat).
    { subst d c. destruct (Nat.leb_spec bpi len1); [|lia]. pose proof (Nat.div_mod len1 bpi Hb). pose proof (Nat.mod_upper_bound len1 bpi Hb). nia. }
    assert (P2 : let '(p2, m2) := if c then pl_write pl (ac_p s1) m1 out1 (len1 / bpi) else (ac_p s1, m1) in
      gend (KS iv) m1 m2 out1 pos1 d /\ arep (mkAC p2 (ac_buf s1) (ac_size s1) (ac_left s1)) iv (pos1 + Z.of_nat d)).
    { destruct c eqn:Eop.
      - apply Nat.leb_le in Eop.
        destruct A1 as (i & R1 & R2 & R3 & R4 & R5 & R6). rewrite H0 in *. cbn [Z.of_nat] in R3. rewrite Z.add_0_r in R3.
        assert (Hn : (len1 / bpi <> 0)%nat) by (pose proof (Nat.div_str_pos len1 bpi); lia).
        pose proof (law_write _ _ _ _ LAW (ac_p s1) iv i m1 out1 (len1 / bpi) R1 ltac:(nia) Hn) as W.
        destruct (pl_write pl (ac_p s1) m1 out1 (len1 / bpi)) as [p2 m2]. destruct W as (W1 & W2 & W3).
        split. { split; auto. rewrite R3. exact W2. }
        destruct R5 as (k & Hk & Hk0). rewrite Hk.
        replace (pos1 + Z.of_nat d) with ((i + Z.of_nat (len1 / bpi)) * Z.of_nat bpi) by (unfold d; nia).
        apply arep_fresh; auto. nia.
      - split; [apply gend_0|]. unfold d. cbn [Z.of_nat]. rewrite Z.add_0_r. destruct s1; auto. }
    destruct (if c then pl_write pl (ac_p s1) m1 out1 (len1 / bpi) else (ac_p s1, m1)) as [p2 m2]. destruct P2 as [X2 A2].
    assert (Eo : (if c then out1 + Z.of_nat (len1 / bpi * bpi) else out1) = out1 + Z.of_nat d) by (unfold d; destruct c; cbn [Z.of_nat]; lia).
    assert (En : (if c then (len1 - len1 / bpi * bpi)%nat else len1) = (len1 - d)%nat) by (unfold d; destruct c; lia).
    rewrite Eo, En. set (len3 := (len1 - d)%nat) in *. cbn [ac_p ac_buf ac_size ac_left].
    assert (X : gend (KS iv) m m2 out pos (l + d)) by (eapply gend_app; [exact X1|exact X2]).
    destruct (Nat.ltb_spec 0 len3) as [Hp|Hp].
    - destruct A2 as (i & R1 & R2 & R3 & R4 & R5 & R6). cbn [ac_p ac_buf ac_size ac_left] in *. rewrite H0 in *. cbn [Z.of_nat] in R3. rewrite Z.add_0_r in R3.
      pose proof (partial_spec p2 (ac_buf s1) (ac_size s1) iv i len3 R1 ltac:(nia) R5 Hp ltac:(lia)) as W. cbv zeta in W.
      unfold from_end. cbn [ac_p ac_buf ac_size ac_left]. cbn [s1 ac_size ac_buf] in W. destruct (pl_write pl p2 _ _ _) as [p4 buf4]. destruct W as [W1 W2]. rewrite <- R3 in W1, W2.
      split.
      + replace len with ((l + d) + len3)%nat at 1 by lia. eapply gend_app; [exact X|].
        replace (out + Z.of_nat (l + d)) with (out1 + Z.of_nat d) by (unfold out1 in *; lia).
        apply gend_store. cbn [s1 ac_size]. rewrite W1. f_equal. unfold pos1. lia.
      + replace (pos + Z.of_nat len) with (pos1 + Z.of_nat d + Z.of_nat len3) by (unfold pos1; lia). exact W2.
    - assert (Q' : (l + d = len)%nat) by lia. rewrite Q' in X. split; auto.
      replace (pos + Z.of_nat len) with (pos1 + Z.of_nat d) by (unfold pos1; lia). exact A2.
  Qed.

  Lemma ac_seek_spec : forall s iv pos position s', arep s iv pos -> 0 <= position -> ac_seek pl s position = Some s' -> arep s' iv position.
  Proof.
    intros s iv pos position s' (i & R1 & R2 & R3 & R4 & (k & Hk & Hk0) & R6) Hp Es. unfold ac_seek in Es.
    destruct (pl_seek pl) as [sk|] eqn:Esk; [|discriminate].
    set (j := position / Z.of_nat bpi) in *.
    assert (Hj : 0 <= j) by (apply Z.div_pos; lia).
    pose proof (law_seek _ _ _ _ LAW sk (ac_p s) iv i j Esk R1 Hj) as Sp.
    pose proof (Z.div_mod position (Z.of_nat bpi) ltac:(lia)) as Dm. fold j in Dm.
    pose proof (Z.mod_pos_bound position (Z.of_nat bpi) ltac:(lia)) as Mb.
    destruct (Nat.ltb_spec 0 (Z.to_nat (position mod Z.of_nat bpi))) as [H|H].
    - pose proof (law_write _ _ _ _ LAW (sk (ac_p s) j) iv j (ac_buf s) (from_end s bpi) 1 Sp Hj ltac:(lia)) as W.
      destruct (pl_write pl (sk (ac_p s) j) (ac_buf s) (from_end s bpi) 1) as [p' buf']. destruct W as (W1 & W2 & W3). injection Es as <-.
      set (r := Z.to_nat (position mod Z.of_nat bpi)) in *. rewrite Nat.mul_1_l in *.
      exists (j + 1). cbn [ac_p ac_left ac_size ac_buf]. repeat split; auto; try lia.
      + exists k; auto.
      + assert (Spl : bpi = (r + (bpi - r))%nat) by lia. rewrite Spl in W2 at 2 5. rewrite !load_app in W2. apply app_inj_length in W2; [|rewrite !load_length; auto].
        destruct W2 as [_ W2]. unfold from_end in *. cbn [ac_size]. 
        replace (Z.of_nat (ac_size s) - Z.of_nat (bpi - r)) with (Z.of_nat (ac_size s) - Z.of_nat bpi + Z.of_nat r) by lia.
        rewrite W2. f_equal. lia.
    - injection Es as <-. replace position with (j * Z.of_nat bpi) by lia. rewrite Hk. apply arep_fresh; auto.
  Qed.

  Theorem additive_history : forall ops s iv pos, arep s iv pos -> Forall sop_ok ops ->
    all_agree ops (spec_srun kb bpi (pl_ivsize pl) (match pl_seek pl with Some _ => true | None => false end) (iv, pos) ops) (ac_run pl s ops).
  Proof.
    induction ops as [|op ops IH]; intros s iv pos Hr Ho; [exact I|]. inversion Ho as [|? ? O1 O2]; subst.
    cbn [spec_srun ac_run]. destruct op as [m out inp len|m out len|position|iv' fresh]; cbn [spec_sstep ac_step].
    - pose proof (ac_process_spec s m out inp len iv pos Hr O1) as X. destruct (ac_process pl s m out inp len) as [s' m'].
      destruct X as [[X1 X2] X3]. cbn [all_agree agrees]. split; auto.
    - pose proof (ac_generate_spec s m out len iv pos Hr) as X. destruct (ac_generate pl s m out len) as [s' m'].
      destruct X as [[X1 X2] X3]. cbn [all_agree agrees]. split; auto.
    - pose proof (ac_seek_spec s iv pos position) as X. destruct (ac_seek pl s position) as [s'|] eqn:Es; unfold ac_seek in Es; destruct (pl_seek pl) as [sk|] eqn:Ek; try discriminate.
      + cbn [all_agree agrees]. split; auto. apply IH; auto. apply X; auto. apply O1.
      + exfalso. destruct (Nat.ltb 0 _) in Es; [destruct (pl_write _ _ _ _ _) in Es|]; discriminate.
      + cbn [all_agree agrees]. split; auto.
    - unfold ac_resync. pose proof (law_iters _ _ _ _ LAW) as Hi. destruct Hr as (i & R1 & R2 & R3 & R4 & R5 & R6).
      destruct (Nat.eqb_spec (length iv') (pl_ivsize pl)) as [E|E].
      + cbn [all_agree agrees]. split; auto. apply IH; auto. rewrite Nat.mul_comm. change 0 with (0 * Z.of_nat bpi).
        apply arep_fresh; auto; [|lia]. apply (law_resync _ _ _ _ LAW); auto. apply (law_keyed _ _ _ _ LAW _ _ _ R1).
      + cbn [all_agree agrees]. split; auto. apply IH; auto. rewrite Nat.mul_comm.
        assert (Ei : (pos + Z.of_nat bpi - 1) / Z.of_nat bpi = i).
        { symmetry. apply Z.div_unique with (Z.of_nat bpi - 1 - Z.of_nat (ac_left s)); lia. }
        rewrite Ei. apply arep_fresh; auto. nia.
  Qed.
  Lemma ac_setkey_rep : forall p iv fresh, keyed p -> length iv = pl_ivsize pl -> bytes iv -> arep (ac_setkey pl p iv fresh) iv 0.
  Proof.
    intros. unfold ac_setkey. pose proof (law_iters _ _ _ _ LAW) as Hi. change 0 with (0 * Z.of_nat bpi).
    assert (Rp : prep (pl_resync pl p iv) iv 0) by (apply (law_resync _ _ _ _ LAW); auto).
    destruct (pl_can pl).
    - rewrite Nat.mul_comm. apply arep_fresh; auto. lia.
    - destruct (round_up_spec 1024 (bpi * pl_iters pl) ltac:(nia)) as (k & -> & K1 & K2).
      replace (k * (bpi * pl_iters pl))%nat with (k * pl_iters pl * bpi)%nat by ring. apply arep_fresh; auto; nia.
  Qed.
End Template.
