(** InflateHeader: the header of a block with dynamic codes. *)
From Coq Require Import ZArith List Bool Lia Arith.
From Verif Require Import Base BitioModel BitioSpec BitioProofs BitioStream HuffmanModel HuffmanSpec
  HuffmanCode HuffmanProofs InflateModel InflateSpec InflateBits.
Import ListNotations.
Open Scope nat_scope.

Definition rok22 (r : reader) : Prop := rok r /\ r_cnt r <= 22.

Lemma init_usable : forall lens d, (Z.of_nat (length lens) < 2 ^ 32)%Z -> dec_init lens = Some d -> usable false lens.
Proof.
  intros lens d HN H. destruct (Nat.le_gt_cases 2 (max_bits lens)) as [M|M].
  - left. apply dec_init_accepts; auto. congruence.
  - right. assert (N0 : max_bits lens <> 0).
    { intros Z0. unfold dec_init in H. destruct lens; [discriminate|]. rewrite Z0 in H. discriminate. }
    split.
    + pose proof (max_bits_in lens ltac:(lia)) as I. apply (In_nth _ _ O) in I as (i & _ & E). exists i. unfold coded. lia.
    + apply Forall_forall. intros x Hx. apply max_bits_bound in Hx. lia.
Qed.

Lemma usable_init : forall lens, usable true lens -> exists d, dec_init lens = Some d.
Proof.
  intros lens [H|(i & H)]; [destruct (dec_init_ok lens H) as (d & E & _); eauto|]. eexists. apply (one_init lens i H).
Qed.

Lemma init_decoder_spec : forall lens, (Z.of_nat (length lens) < 2 ^ 32)%Z ->
  match init_decoder lens with
  | Fine d => usable false lens /\ decoder_of lens d
  | BadBlock => ~ usable true lens
  | _ => False
  end.
Proof.
  intros lens HN. unfold init_decoder. destruct (dec_init lens) as [d|] eqn:E.
  - split; [apply init_usable with d; auto|constructor; auto].
  - intros H. destruct (usable_init lens H) as (d & E'). congruence.
Qed.

(** * The lengths of the code length code *)
Definition threes (l : list nat) : list bool := flat_map (fun l => lsbs 3 (Z.of_nat l)) l.

Lemma threes_length : forall l, length (threes l) = 3 * length l.
Proof. induction l; [reflexivity|]. unfold threes in *. cbn [flat_map]. rewrite app_length, lsbs_length, IHl. cbn [length]. lia. Qed.

Lemma threes_inj : forall l l2, length l = length l2 -> Forall (fun x => x < 8) l -> Forall (fun x => x < 8) l2 ->
  threes l = threes l2 -> l = l2.
Proof.
  induction l as [|x l IH]; intros [|y l2] HL HA HB E; cbn in HL; try discriminate; [reflexivity|].
  inversion HA; inversion HB; subst. unfold threes in E. cbn [flat_map] in E.
  apply app_eq_len in E as [E1 E2]; [|rewrite !lsbs_length; auto]. f_equal.
  - apply lsbs_inj in E1; lia.
  - apply IH; auto.
Qed.

Definition place (l : list (nat * nat)) (cl : list nat) : list nat := fold_left (fun c p => upd (fst p) (snd p) c) l cl.

Lemma read_border_spec : forall idx r cl, rok22 r ->
  if length (rbits r) <? 3 * length idx then read_border r idx cl = Wild
  else exists r' l, read_border r idx cl = Fine (r', place (combine idx l) cl) /\ rok22 r'
       /\ length l = length idx /\ Forall (fun x => x < 8) l /\ rbits r = threes l ++ rbits r'.
Proof.
  induction idx as [|b idx IH]; intros r cl HR.
  - cbn [length]. rewrite Nat.mul_0_r. cbn [Nat.ltb Nat.leb read_border]. exists r, []. cbn. auto.
  - cbn [read_border length]. destruct (Nat.lt_ge_cases (length (rbits r)) 3) as [S3|G3].
    + rewrite (proj2 (Nat.ltb_lt _ _)) by lia. rewrite (get_short r 3 (proj1 HR)) by lia. reflexivity.
    + destruct (get_spec r 3 (proj1 HR) ltac:(lia) G3) as (r1 & v & G & R1 & F & C). rewrite G. cbn [bind].
      pose proof (field_len _ _ _ _ F) as FL. destruct F as [FV FE].
      assert (R22 : rok22 r1) by (split; auto; destruct HR; lia).
      specialize (IH r1 (upd b v cl) R22).
      destruct (Nat.ltb_spec (length (rbits r1)) (3 * length idx)).
      * rewrite (proj2 (Nat.ltb_lt _ _)) by lia. exact IH.
      * rewrite (proj2 (Nat.ltb_ge _ _)) by lia. destruct IH as (r' & l & E & R' & L & FA & B).
        exists r', (v :: l). split; [exact E|]. split; auto. split; [cbn; lia|]. split; [constructor; auto|].
        rewrite FE, B. unfold threes. cbn [flat_map]. rewrite app_assoc. reflexivity.
Qed.

Lemma place_length : forall l cl, length (place l cl) = length cl.
Proof. induction l as [|p l IH]; intros cl; cbn; [reflexivity|]. rewrite IH, upd_length. reflexivity. Qed.

Lemma place_nth : forall l cl k, NoDup (map fst l) -> (forall p, In p l -> fst p < length cl) ->
  nth k (place l cl) 0 = match find (fun p => fst p =? k) l with Some (_, v) => v | None => nth k cl 0 end.
Proof.
  induction l as [|[b v] l IH]; intros cl k HN HL; [reflexivity|].
  cbn [map fst] in HN. inversion HN; subst.
  cbn [place fold_left find fst snd]. change (fold_left _ l (upd b v cl)) with (place l (upd b v cl)).
  rewrite IH; auto; [|intros p Hp; rewrite upd_length; apply HL; right; auto].
  pose proof (HL (b, v) ltac:(left; auto)) as HB. cbn in HB.
  destruct (Nat.eqb_spec b k) as [->|N].
  - destruct (find (fun p => fst p =? k) l) as [[c w]|] eqn:E; [|apply upd_nth_eq; auto].
    apply find_some in E as [E1 E2]. cbn in E2. apply Nat.eqb_eq in E2. subst c. exfalso. apply H1.
    apply (in_map fst) in E1. exact E1.
  - rewrite upd_nth_neq by auto. reflexivity.
Qed.

Lemma combine_firstn : forall {A B} (a : list A) (l : list B) m, length l = m -> combine (firstn m a) l = combine a l.
Proof.
  induction a as [|x a IH]; intros [|y l] m H; destruct m; cbn in *; try discriminate; auto.
  f_equal. apply IH. lia.
Qed.

Lemma combine_fst_incl : forall {A B} (a : list A) (l : list B), exists m, map fst (combine a l) = firstn m a.
Proof.
  induction a as [|x a IH]; intros [|y l]; cbn; try (exists 0; reflexivity).
  destruct (IH l) as (m & E). exists (S m). cbn. rewrite E. reflexivity.
Qed.

Lemma NoDup_firstn : forall {A} m (a : list A), NoDup a -> NoDup (firstn m a).
Proof.
  intros A m a H. rewrite <- (firstn_skipn m a) in H. induction (firstn m a) as [|x l IH]; [constructor|].
  cbn in H. inversion H; subst. constructor; auto. intros I. apply H2. apply in_or_app. auto.
Qed.

Lemma border_nodup : NoDup cl_order.
Proof. unfold cl_order. repeat (constructor; [intros H; cbn in H; lia|]). constructor. Qed.

Lemma place_cl_lens : forall l, length l <= 19 ->
  place (combine (firstn (length l) border) l) (repeat 0 19) = cl_lens l.
Proof.
  intros l HL. rewrite combine_firstn by reflexivity. change border with cl_order.
  assert (HN : NoDup (map fst (combine cl_order l))).
  { destruct (combine_fst_incl cl_order l) as (m & ->). apply NoDup_firstn, border_nodup. }
  assert (HI : forall p, In p (combine cl_order l) -> fst p < length (repeat 0 19)).
  { intros [b v] Hp. apply in_combine_l in Hp. rewrite repeat_length. cbn [fst].
    unfold cl_order in Hp. cbn in Hp. lia. }
  apply (nth_ext _ _ 0 0).
  - rewrite place_length, repeat_length. unfold cl_lens. rewrite map_length, seq_length. reflexivity.
  - rewrite place_length, repeat_length. intros k Hk. rewrite place_nth by auto.
    unfold cl_lens. set (f := fun k => match find (fun p => fst p =? k) (combine cl_order l) with Some (_, v) => v | None => 0 end).
    rewrite (nth_indep (map f (seq 0 19)) 0 (f 0)) by (rewrite map_length, seq_length; auto). rewrite map_nth, seq_nth by auto.
    unfold f. cbn [Nat.add]. destruct (find _ _) as [[? ?]|]; [reflexivity|]. apply nth_repeat.
Qed.

Lemma cl_lens_length : forall l, length (cl_lens l) = 19.
Proof. intros. unfold cl_lens. rewrite map_length, seq_length. reflexivity. Qed.

Lemma cl_lens_small : forall l, Forall (fun x => x < 8) l -> Forall (fun x => x < 8) (cl_lens l).
Proof.
  intros l H. apply Forall_forall. intros x Hx. unfold cl_lens in Hx. apply in_map_iff in Hx as (k & <- & _).
  destruct (find _ _) as [[b v]|] eqn:E; [|lia]. apply find_some in E as [E _]. apply in_combine_r in E.
  rewrite Forall_forall in H. auto.
Qed.

(** * The run-length coded lengths *)
Definition xbits (k : nat) : nat :=
  match k with 16 => 2 | 17 => 3 | 18 => 7 | _ => 0 end.
Definition rep (k e : nat) (acc : list nat) : option (nat * nat) :=
  if k <=? 15 then Some (1, k)
  else match k with
  | 16 => match acc with [] => None | _ => Some (3 + e, last acc 0) end
  | 17 => Some (3 + e, 0)
  | 18 => Some (11 + e, 0)
  | _ => None
  end.

Lemma field_0 : forall e s s', field 0 e s s' <-> e = 0 /\ s = s'.
Proof. intros e s s'. unfold field. cbn. split; [intros [A ->]; split; [lia|auto]|intros [-> ->]; split; [lia|auto]]. Qed.

Lemma xbits_small : forall k, k <= 15 -> xbits k = 0.
Proof. intros k H. do 16 (destruct k as [|k]; [reflexivity|]). lia. Qed.

Lemma lengths_bound : forall b cl n acc s lens s2, lengths b cl n acc s lens s2 -> length acc <= n /\ length lens = n.
Proof. intros b cl n acc s lens s2 H. induction H; try (destruct IHlengths; lia). lia. Qed.

Lemma rep_bound : forall k e acc c v, rep k e acc = Some (c, v) -> Forall (fun x => x <= 15) acc -> v <= 15 /\ 1 <= c.
Proof.
  intros k e acc c v H HF. unfold rep in H. destruct (Nat.leb_spec k 15); [injection H as <- <-; lia|].
  do 16 (destruct k as [|k]; [lia|]). destruct k as [|[|[|k]]]; try discriminate; try (injection H as <- <-; lia).
  destruct acc as [|x acc]; [discriminate|]. injection H as <- <-. split; [|lia].
  rewrite Forall_forall in HF. apply HF. clear. revert x. induction acc as [|y acc IH]; intros x; [left; reflexivity|].
  right. apply IH.
Qed.

Lemma lengths_step : forall b cl n acc s lens s2, length acc < n ->
  lengths b cl n acc s lens s2 <->
  exists k s1 e s' c v, reads b cl s k s1 /\ field (xbits k) e s1 s' /\ rep k e acc = Some (c, v)
    /\ lengths b cl n (acc ++ repeat v c) s' lens s2.
Proof.
  intros b cl n acc s lens s2 HL. split.
  - intros H. inversion H; subst; try lia.
    + exists k, s', 0, s', 1, k. split; auto. split; [rewrite xbits_small by auto; apply field_0; auto|].
      split; auto. unfold rep. rewrite (proj2 (Nat.leb_le _ _)) by lia. reflexivity.
    + exists 16, s1, e, s3, (3 + e), x. split; auto. split; auto. split; auto. unfold rep. cbn [Nat.leb].
      rewrite last_last. destruct acc0; reflexivity.
    + exists 17, s1, e, s3, (3 + e), 0. auto.
    + exists 18, s1, e, s3, (11 + e), 0. auto.
  - intros (k & s1 & e & s' & c & v & HR & HF & HP & H). unfold rep in HP. destruct (Nat.leb_spec k 15).
    + injection HP as <- <-. rewrite xbits_small in HF by auto. apply field_0 in HF as [-> ->].
      eapply len_one; eauto.
    + do 16 (destruct k as [|k]; [lia|]). destruct k as [|[|[|k]]]; try discriminate.
      * destruct (list_eq_dec Nat.eq_dec acc []) as [->|NE]; [discriminate|].
        assert (HP' : Some (3 + e, last acc 0) = Some (c, v)) by (destruct acc; [contradiction|exact HP]). clear HP.
        destruct (exists_last NE) as (l' & x & ->). rewrite last_last in HP'. injection HP' as <- <-.
        eapply len_copy; eauto.
      * injection HP as <- <-. eapply len_zero3; eauto.
      * injection HP as <- <-. eapply len_zero11; eauto.
Qed.

Lemma repeat_of_spec : forall k r acc, rok22 r -> k <= 18 ->
  match repeat_of k r acc with
  | Fine (r', c, v) => rok22 r' /\ exists e, field (xbits k) e (rbits r) (rbits r') /\ rep k e acc = Some (c, v)
  | BadBlock => forall e, rep k e acc = None
  | UnexpectedEnd => length (rbits r) < xbits k
  | Wild => False
  end.
Proof.
  intros k r acc [HR HC] Hk. unfold repeat_of, rep. destruct (Nat.leb_spec k 15).
  - split; [split; auto|]. exists 0. rewrite xbits_small by auto. split; [apply field_0; auto|reflexivity].
  - assert (GO : forall n, n <= 7 -> match need r n with
      | Fine r1 => exists r' v, get r1 n = Fine (r', v) /\ rok22 r' /\ field n v (rbits r) (rbits r')
      | UnexpectedEnd => length (rbits r) < n | _ => False end).
    { intros n Hn. pose proof (need_spec r n HR ltac:(lia)) as N. destruct (need r n) as [r1| | |]; auto.
      destruct N as (A & B & C & D & E). rewrite <- B in D.
      destruct (get_spec r1 n A ltac:(lia) D) as (r' & v & G & R & F & CC). rewrite B in F.
      exists r', v. split; auto. split; auto. split; auto. lia. }
    do 16 (destruct k as [|k]; [lia|]). destruct k as [|[|[|k]]]; [| | |lia].
    + specialize (GO 2 ltac:(lia)). destruct (need r 2) as [r1| | |]; try contradiction; auto. destruct GO as (r' & v & G & R & F).
      cbn [bind]. rewrite G. cbn [bind]. destruct acc; [reflexivity|]. eauto.
    + specialize (GO 3 ltac:(lia)). destruct (need r 3) as [r1| | |]; try contradiction; auto. destruct GO as (r' & v & G & R & F).
      cbn [bind]. rewrite G. cbn [bind]. eauto.
    + specialize (GO 7 ltac:(lia)). destruct (need r 7) as [r1| | |]; try contradiction; auto. destruct GO as (r' & v & G & R & F).
      cbn [bind]. rewrite G. cbn [bind]. eauto.
Qed.

Lemma xbits_le : forall k, xbits k <= 7.
Proof. intros k. do 19 (destruct k as [|k]; [cbn; lia|]). cbn. lia. Qed.

Lemma read_lengths_spec : forall cl n, usable false cl -> max_bits cl <= 7 -> length cl = 19 ->
  forall fuel cd r acc, decoder_of cl cd -> rok22 r -> length acc <= n -> n - length acc < fuel ->
  Forall (fun x => x <= 15) acc ->
  match read_lengths fuel cd r acc n with
  | Fine (r', lens) => rok22 r' /\ lengths false cl n acc (rbits r) lens (rbits r')
      /\ (forall t lens2 s2, usable true cl -> lengths true cl n acc (rbits r ++ t) lens2 s2 -> lens2 = lens /\ s2 = rbits r' ++ t)
      /\ Forall (fun x => x <= 15) lens /\ length lens = n /\ length (rbits r') <= length (rbits r)
  | BadBlock => forall t lens2 s2, usable true cl -> ~ lengths true cl n acc (rbits r ++ t) lens2 s2
  | UnexpectedEnd => length (rbits r) < 14 * (n - length acc)
      /\ forall lens2 s2, usable true cl -> ~ lengths true cl n acc (rbits r) lens2 s2
  | Wild => 318 < n
  end.
Proof.
  intros cl n HU HM HL fuel. induction fuel as [|fuel IH]; intros cd r acc HD HR HA HFu HF; [lia|].
  cbn [read_lengths]. destruct (Nat.leb_spec n (length acc)) as [LE|LT].
  - assert (EQ : length acc = n) by lia. split; auto. split; [constructor; auto|]. split; [|split; auto].
    intros t lens2 s2 _ H. inversion H; subst; try lia; try (rewrite H0 in *; lia). auto.
  - destruct (dsym cl cd r HU HD (proj1 HR)) as (cd' & r1 & res & D & HD' & R1 & C1 & S). rewrite D.
    destruct res as [k|].
    2:{ destruct S as (S1 & S2 & S3). split; [lia|]. intros lens2 s2 UT H. apply lengths_step in H; auto.
        destruct H as (k & s1 & e & s' & c & v & HRd & _). apply (S3 k s1 HRd). }
    destruct S as (RD & SL & SM & DET).
    assert (K18 : k <= 18).
    { destruct RD as [Ck _]. unfold coded in Ck. destruct (Nat.le_gt_cases k 18); auto. rewrite nth_overflow in Ck by lia. lia. }
    assert (R22 : rok22 r1) by (split; auto; destruct HR; lia).
    pose proof (repeat_of_spec k r1 acc R22 K18) as RO. pose proof (xbits_le k).
    destruct (repeat_of k r1 acc) as [[[r2 c] v]| | |]; cbn [bind].
    + destruct RO as [R2 (e & FE & RP)].
      assert (NOT : n < length acc + c -> forall t lens2 s2, usable true cl -> ~ lengths true cl n acc (rbits r ++ t) lens2 s2).
      { intros G t lens2 s2 UT H1. apply lengths_step in H1; auto.
        destruct H1 as (k' & s1 & e' & s' & c' & v' & HRd & HFd & HRp & HLn).
        destruct (DET t k' s1 UT HRd) as [-> ->].
        destruct (field_det _ _ _ _ _ _ (field_app _ _ _ _ t FE) HFd) as [-> ->].
        rewrite RP in HRp. injection HRp as <- <-. apply lengths_bound in HLn as [HLn _].
        rewrite app_length, repeat_length in HLn. lia. }
      destruct (Nat.ltb_spec n (length acc + c)); [apply NOT; auto|].
      destruct (Nat.ltb_spec 318 (length acc + c)); [lia|].
      destruct (rep_bound _ _ _ _ _ RP HF) as [V15 C1'].
      pose proof (field_len _ _ _ _ FE) as FL.
      specialize (IH cd' r2 (acc ++ repeat v c) HD' R2). rewrite app_length, repeat_length in IH.
      assert (HF2 : Forall (fun x => x <= 15) (acc ++ repeat v c)).
      { apply Forall_app. split; auto. apply Forall_forall. intros x Hx. apply repeat_spec in Hx. lia. }
      specialize (IH ltac:(lia) ltac:(lia) HF2).
      assert (BACK : forall t lens2 s2, usable true cl -> lengths true cl n acc (rbits r ++ t) lens2 s2 ->
        lengths true cl n (acc ++ repeat v c) (rbits r2 ++ t) lens2 s2).
      { intros t lens2 s2 UT H2. apply lengths_step in H2; auto.
        destruct H2 as (k' & s1 & e' & s' & c' & v' & HRd & HFd & HRp & HLn).
        destruct (DET t k' s1 UT HRd) as [-> ->].
        destruct (field_det _ _ _ _ _ _ (field_app _ _ _ _ t FE) HFd) as [-> ->].
        rewrite RP in HRp. injection HRp as <- <-. exact HLn. }
      destruct (read_lengths fuel cd' r2 (acc ++ repeat v c) n) as [[r' lens]| | |].
      * destruct IH as (I1 & I2 & I3 & I4 & I5 & I6). split; auto. split.
        { apply lengths_step; auto. exists k, (rbits r1), e, (rbits r2), c, v. auto. }
        split; [|split; [auto|split; [auto|lia]]]. intros t lens2 s2 UT H2. apply I3; auto.
      * intros t lens2 s2 UT H2. apply (IH t lens2 s2 UT). auto.
      * destruct IH as [I1 I2]. split; [lia|]. intros lens2 s2 UT H2. apply (I2 lens2 s2 UT).
        rewrite <- (app_nil_r (rbits r2)). apply BACK; auto. rewrite app_nil_r. exact H2.
      * exact IH.
    + intros t lens2 s2 UT H1. apply lengths_step in H1; auto.
      destruct H1 as (k' & s1 & e' & s' & c' & v' & HRd & HFd & HRp & HLn).
      destruct (DET t k' s1 UT HRd) as [-> ->]. rewrite RO in HRp. discriminate.
    + split; [lia|]. intros lens2 s2 UT H1. apply lengths_step in H1; auto.
      destruct H1 as (k' & s1 & e' & s' & c' & v' & HRd & HFd & HRp & HLn).
      rewrite <- (app_nil_r (rbits r)) in HRd. destruct (DET [] k' s1 UT HRd) as [-> ->].
      apply field_len in HFd. rewrite app_nil_r in HFd. lia.
    + destruct RO.
Qed.

(** * The whole header *)
Lemma max_of_forall : forall lens m, Forall (fun x => x <= m) lens -> max_bits lens <= m.
Proof. unfold max_bits. induction 1 as [|x l H _ IH]; cbn [fold_right]; lia. Qed.

Lemma dynamic_spec : forall r old, rok22 r ->
  match dynamic_header r old with
  | Fine (r', lit, dist) => rok22 r' /\ length (rbits r') <= length (rbits r) /\ exists lits dists,
      dynamic false (rbits r) lits dists (rbits r')
      /\ (forall t l d s', dynamic true (rbits r ++ t) l d s' -> l = lits /\ d = dists /\ s' = rbits r' ++ t
          /\ usable true lits /\ (usable true dists \/ dists = [0]))
      /\ usable false lits /\ decoder_of lits lit /\ max_bits lits <= 15
      /\ ((exists dd, dist = Some dd /\ decoder_of dists dd /\ usable false dists /\ max_bits dists <= 15)
          \/ (dists = [0] /\ length lits = 257))
  | _ => forall t, t = [] \/ 4600 <= length (rbits r) -> forall l d s', ~ dynamic true (rbits r ++ t) l d s'
  end.
Proof.
  intros r old HR. unfold dynamic_header.
  pose proof (need_spec r 14 (proj1 HR) ltac:(lia)) as N. destruct (need r 14) as [r0| | |]; try contradiction; cbn [bind].
  2:{ intros t [->|G] l d s' H; [|lia]. rewrite app_nil_r in H.
      destruct H as (hlit & hdist & hclen & s1 & s2 & s3 & cl & s4 & lens & F1 & F2 & F3 & _).
      apply field_len in F1, F2, F3. lia. }
  destruct N as (A0 & B0 & C0 & D0 & E0). rewrite <- B0 in *.
  destruct (get_spec r0 5 A0 ltac:(lia) ltac:(lia)) as (r1 & hlit & G1 & R1 & F1 & C1). rewrite G1. cbn [bind].
  pose proof (field_len _ _ _ _ F1) as L1.
  destruct (get_spec r1 5 R1 ltac:(lia) ltac:(lia)) as (r2 & hdist & G2 & R2 & F2 & C2). rewrite G2. cbn [bind].
  pose proof (field_len _ _ _ _ F2) as L2.
  destruct (get_spec r2 4 R2 ltac:(lia) ltac:(lia)) as (r3 & hclen & G3 & R3 & F3 & C3). rewrite G3. cbn [bind].
  pose proof (field_len _ _ _ _ F3) as L3.
  assert (R322 : rok22 r3) by (split; auto; destruct HR; lia).
  pose proof (proj1 F1) as V1. pose proof (proj1 F2) as V2. pose proof (proj1 F3) as V3.
  change (2 ^ 5) with 32 in V1, V2. change (2 ^ 4) with 16 in V3.
  (* what a strict header says about the first fields *)
  assert (INV : forall t l d s', dynamic true (rbits r0 ++ t) l d s' ->
    exists cl s4 lens, hlit <= 29 /\ length cl = hclen + 4 /\ Forall (fun x => x < 8) cl
      /\ rbits r3 ++ t = threes cl ++ s4 /\ usable true (cl_lens cl)
      /\ lengths true (cl_lens cl) (hlit + 257 + hdist + 1) [] s4 lens s'
      /\ l = firstn (hlit + 257) lens /\ d = skipn (hlit + 257) lens
      /\ usable true l /\ (usable true d \/ d = [0] /\ hlit = 0)).
  { intros t l d s' (h1 & h2 & h3 & s1 & s2 & s3 & cl & s4 & lens & X1 & X2 & X3 & X4 & X5 & X6 & X7 & X8 & X9 & X10 & X11 & X12 & X13).
    destruct (field_det _ _ _ _ _ _ (field_app _ _ _ _ t F1) X1) as [-> ->].
    destruct (field_det _ _ _ _ _ _ (field_app _ _ _ _ t F2) X2) as [-> ->].
    destruct (field_det _ _ _ _ _ _ (field_app _ _ _ _ t F3) X3) as [-> ->].
    exists cl, s4, lens. repeat (split; auto). }
  pose proof (read_border_spec (firstn (hclen + 4) border) r3 (repeat 0 19) R322) as RB.
  assert (LB : length (firstn (hclen + 4) border) = hclen + 4) by (rewrite firstn_length; cbn [border length]; lia).
  rewrite LB in RB.
  destruct (Nat.ltb_spec (length (rbits r3)) (3 * (hclen + 4))) as [SH|LO].
  { rewrite RB. cbn [bind]. intros t [->|G] l d s' H; [|lia]. destruct (INV [] l d s' H) as (cl & s4 & lens & _ & X5 & _ & X7 & _).
    apply (f_equal (@length bool)) in X7. rewrite !app_length, threes_length in X7. cbn [length] in X7. lia. }
  destruct RB as (r4 & cl & E4 & R4 & LC & FC & B4). rewrite E4. cbn [bind].
  assert (PC : place (combine (firstn (hclen + 4) border) cl) (repeat 0 19) = cl_lens cl).
  { rewrite <- LC. apply place_cl_lens. lia. }
  rewrite PC. clear E4.
  assert (INV2 : forall t l d s', dynamic true (rbits r0 ++ t) l d s' -> hlit <= 29 /\ usable true (cl_lens cl) /\
    exists lens, lengths true (cl_lens cl) (hlit + 257 + hdist + 1) [] (rbits r4 ++ t) lens s'
      /\ l = firstn (hlit + 257) lens /\ d = skipn (hlit + 257) lens
      /\ usable true l /\ (usable true d \/ d = [0] /\ hlit = 0)).
  { intros t l d s' H. destruct (INV t l d s' H) as (cl2 & s4 & lens & Y0 & Y1 & Y2 & Y3 & Y4 & Y5 & Y6 & Y7 & Y8 & Y9).
    rewrite B4, <- app_assoc in Y3. apply app_eq_len in Y3 as [Y3 Y3']; [|rewrite !threes_length; lia].
    apply threes_inj in Y3; auto; [|lia]. subst cl2 s4. split; auto. split; auto. exists lens. auto. }
  clear INV.
  assert (L4 : length (rbits r3) = 3 * (hclen + 4) + length (rbits r4)) by (rewrite B4, app_length, threes_length; lia).
  pose proof (init_decoder_spec (cl_lens cl) ltac:(rewrite cl_lens_length; reflexivity)) as ID.
  destruct (init_decoder (cl_lens cl)) as [cd| | |]; cbn [bind]; try contradiction.
  2:{ intros t _ l d s' H. destruct (INV2 t l d s' H) as (_ & U & _). contradiction. }
  destruct ID as [UC DC].
  assert (M7 : max_bits (cl_lens cl) <= 7).
  { apply max_of_forall. eapply Forall_impl; [|apply cl_lens_small; exact FC]. intros; cbv beta in *; lia. }
  set (n := hlit + 257 + hdist + 1) in *.
  pose proof (read_lengths_spec (cl_lens cl) n UC M7 (cl_lens_length cl) (S n) cd r4 [] DC R4 ltac:(cbn; lia) ltac:(cbn; lia) ltac:(constructor)) as RL.
  cbn [length] in RL. rewrite Nat.sub_0_r in RL.
  destruct (read_lengths (S n) cd r4 [] n) as [[r5 lens]| | |]; cbn [bind].
  2:{ intros t _ l d s' H. destruct (INV2 t l d s' H) as (_ & U & lens & X & _). apply (RL t lens s' U X). }
  2:{ destruct RL as [RL1 RL2]. intros t [->|G] l d s' H.
      - destruct (INV2 [] l d s' H) as (_ & U & lens & X & _). rewrite app_nil_r in X. apply (RL2 lens s' U X).
      - exfalso. unfold n in RL1. lia. }
  2:{ intros t _ l d s' H. destruct (INV2 t l d s' H) as (H29 & _). unfold n in RL. lia. }
  destruct RL as (R5 & LN & DET & F15 & LL & LE5).
  assert (INV3 : forall t l d s', dynamic true (rbits r0 ++ t) l d s' ->
    l = firstn (hlit + 257) lens /\ d = skipn (hlit + 257) lens /\ s' = rbits r5 ++ t
      /\ usable true l /\ (usable true d \/ d = [0] /\ hlit = 0)).
  { intros t l d s' H. destruct (INV2 t l d s' H) as (_ & U & lens2 & X & Y1 & Y2 & Y3 & Y4).
    destruct (DET t lens2 s' U X) as [-> ->]. auto. }
  clear INV2.
  assert (F15a : Forall (fun x => x <= 15) (firstn (hlit + 257) lens) /\ Forall (fun x => x <= 15) (skipn (hlit + 257) lens)).
  { rewrite <- (firstn_skipn (hlit + 257) lens) in F15. apply Forall_app in F15. exact F15. }
  assert (LF : length (firstn (hlit + 257) lens) = hlit + 257) by (rewrite firstn_length; unfold n in LL; lia).
  assert (LS : length (skipn (hlit + 257) lens) = hdist + 1) by (rewrite skipn_length; unfold n in LL; lia).
  pose proof (init_decoder_spec (firstn (hlit + 257) lens) ltac:(rewrite LF; lia)) as IL.
  destruct (init_decoder (firstn (hlit + 257) lens)) as [lit| | |]; cbn [bind]; try contradiction.
  2:{ intros t _ l d s' H. destruct (INV3 t l d s' H) as (-> & _ & _ & U & _). contradiction. }
  destruct IL as [UL DL].
  assert (DYN : (usable false (skipn (hlit + 257) lens) \/ skipn (hlit + 257) lens = [0] /\ hlit = 0) ->
     dynamic false (rbits r0) (firstn (hlit + 257) lens) (skipn (hlit + 257) lens) (rbits r5)).
  { intros UD. exists hlit, hdist, hclen, (rbits r1), (rbits r2), (rbits r3), cl, (rbits r4), lens.
    repeat (split; auto). discriminate. }
  assert (NH : nth (hlit + 257) lens 0 = nth 0 (skipn (hlit + 257) lens) 0).
  { rewrite <- (firstn_skipn (hlit + 257) lens) at 1. rewrite app_nth2 by lia. rewrite LF, Nat.sub_diag. reflexivity. }
  rewrite NH. remember (skipn (hlit + 257) lens) as ds eqn:EDS.
  destruct (Nat.eqb_spec hdist 0) as [H0|N0]; cbn [andb].
  - assert (DS1 : exists x, ds = [x]).
    { destruct ds as [|x [|y ds]]; cbn in LS; try lia. eauto. }
    destruct DS1 as (x & DSX). rewrite DSX in *. cbn [nth].
    destruct (Nat.eqb_spec x 0) as [-> |NX].
    + destruct (Nat.eqb_spec hlit 0) as [-> |NL].
      * split; auto. split; [lia|]. exists (firstn (0 + 257) lens), [0]. split; [apply DYN; auto|]. split.
        { intros t l d s' H. destruct (INV3 t l d s' H) as (-> & -> & -> & U & _). repeat split; auto. }
        split; auto. split; auto. split; [apply max_of_forall; apply F15a|]. right. auto.
      * intros t _ l d s' H. destruct (INV3 t l d s' H) as (_ & -> & _ & _ & [U|[_ U]]); [|contradiction].
        apply usable_strict, usable_max in U. cbn in U. lia.
    + pose proof (init_decoder_spec [x] ltac:(reflexivity)) as IX.
      destruct (init_decoder [x]) as [dist| | |]; cbn [bind]; try contradiction.
      2:{ intros t _ l d s' H. destruct (INV3 t l d s' H) as (_ & -> & _ & _ & [U|[U _]]); [contradiction|]. injection U as ->. contradiction. }
      destruct IX as [UX DX]. split; auto. split; [lia|]. exists (firstn (hlit + 257) lens), [x]. split; [apply DYN; auto|]. split.
      { intros t l d s' H. destruct (INV3 t l d s' H) as (-> & -> & -> & U & [U2|[U2 _]]); repeat split; auto. }
      split; auto. split; auto. split; [apply max_of_forall; apply F15a|]. left. exists dist. split; auto. split; auto. split; auto.
      apply max_of_forall. apply F15a.
  - pose proof (init_decoder_spec ds ltac:(rewrite LS; lia)) as IX.
    destruct (init_decoder ds) as [dist| | |]; cbn [bind]; try contradiction.
    2:{ intros t _ l d s' H. destruct (INV3 t l d s' H) as (_ & -> & _ & _ & [U|[U _]]); [contradiction|]. rewrite U in LS. cbn in LS. lia. }
    destruct IX as [UX DX]. split; auto. split; [lia|]. exists (firstn (hlit + 257) lens), ds. split; [apply DYN; auto|]. split.
    { intros t l d s' H. destruct (INV3 t l d s' H) as (-> & -> & -> & U & [U2|[U2 _]]); repeat split; auto. }
    split; auto. split; auto. split; [apply max_of_forall; apply F15a|]. left. exists dist. split; auto. split; auto. split; auto.
    apply max_of_forall. apply F15a.
Qed.
