From Coq Require Import ZArith List Bool Arith Lia Permutation.
From Verif Require Import Base Gf2Spec Gf32Model Gf32Proofs Gf32FieldProofs InterpModel InterpSpec InterpGfProofs IdaModel IdaSpec IdaProofs IdaSinkProofs IdaRawProofs.
Import ListNotations.

Lemma inv_ext : forall t outs prop chan R En R' En' ids k a, Inv t outs prop chan R En ids k a -> (forall c, R c = R' c) -> (forall c, En c = En' c) -> Inv t outs prop chan R' En' ids k a.
Proof.
  intros t outs prop chan R En R' En' ids k a [I1 I2 I3 I4 I5 I6 I7 I8 I9 I10 I11 I12 I13 I14] HR HE.
  assert (CL : count (legit R' En' k) ids = count (legit R En k) ids) by (apply count_ext; intros c _; unfold legit; rewrite <- HR, <- HE; reflexivity).
  constructor; auto.
  - rewrite I4. apply view_ext. intros c _. unfold qof. rewrite HR, HE. reflexivity.
  - intros c Hc. rewrite <- HR, <- HE. auto.
  - rewrite CL. auto.
  - intros Q. rewrite CL. apply I11. intros c. rewrite HE. auto.
  - rewrite I12. apply count_ext. intros. apply HE.
  - intros c Hc Ec. rewrite <- HR. apply I14; auto. rewrite HE. auto.
Qed.
Lemma inv_prop : forall t outs prop chan R En ids k a p, Inv t outs prop chan R En ids k a -> Inv t outs p chan R En ids k (ida_set_prop a p).
Proof. intros t outs prop chan R En ids k a p [I1 I2 I3 I4 I5 I6 I7 I8 I9 I10 I11 I12 I13 I14]. constructor; auto. Qed.
Lemma stream_app : forall c a b, stream c (a ++ b) = stream c a ++ stream c b.
Proof. induction a as [|[[d s] f] a IH]; intros b; cbn [app stream]; [reflexivity|]. rewrite IH, app_assoc. reflexivity. Qed.
Lemma ida_run_app : forall cut kd a l m, ida_run cut kd a (l ++ m) = match ida_run cut kd a l with None => None | Some (a1, e1) => match ida_run cut kd a1 m with None => None | Some (a2, e2) => Some (a2, e1 ++ e2) end end.
Proof.
  intros cut kd a l. revert a. induction l as [|[[c s] f] l IH]; intros a m; cbn [app ida_run].
  - destruct (ida_run cut kd a m) as [[a2 e2]|]; reflexivity.
  - destruct (ida_data cut kd a c s f) as [[a1 e1]|]; [|reflexivity]. rewrite IH. destruct (ida_run cut kd a1 l) as [[a2 e2]|]; [|reflexivity]. destruct (ida_run cut kd a2 m) as [[a3 e3]|]; [|reflexivity]. rewrite app_assoc. reflexivity.
Qed.
Lemma incl_or : forall l m : list Z, incl l m \/ exists d, In d l /\ ~ In d m.
Proof.
  induction l as [|u l IH]; intros m; [left; intros z []|]. destruct (in_dec Z.eq_dec u m) as [i|i]; [|right; exists u; cbn; auto]. destruct (IH m) as [Q|(d & Q1 & Q2)]; [left; intros z [->|Hz]; auto|right; exists d; cbn; auto].
Qed.
Definition open_call (chan : list Z) (x : Z * list Z * bool) : Prop := In (fst (fst x)) chan /\ snd x = false.

Section Open.
  Variables (cut : list Z -> list (list Z)) (kd : ida_kind) (t : nat) (outs : list Z) (prop : Z) (chan : list Z).
  Hypotheses (Ht : (1 <= t)%nat) (HND : NoDup chan) (HL : length chan = t).
  Local Notation E0 := (fun _ : Z => false).
  Lemma run_inv : forall calls R ids k a, Inv t outs prop chan R E0 ids k a -> Forall (open_call chan) calls ->
    exists n ids' a' e gs, ida_run cut kd a calls = Some (a', e) /\ Inv t outs prop chan (fun c => R c ++ stream c calls) E0 ids' (k + n) a' /\ snks kd t outs prop (st_of a) gs = (st_of a', e) /\
      forall Sf W, (forall ids', NoDup ids' -> incl ids' chan -> length ids' = t -> forall j o, In o outs -> ida_word t ids' (map (fun c => word_at (Sf c) j) ids') o = W j o) ->
        (forall c, In c chan -> exists rest, Sf c = R c ++ stream c calls ++ rest) -> concat gs = wrows outs W k n.
  Proof.
    induction calls as [|[[c s] f] calls IH]; intros R ids k a HI HC.
    - exists 0%nat, ids, a, [], []. rewrite Nat.add_0_r. split; [reflexivity|]. split; [|split; reflexivity]. apply (inv_ext _ _ _ _ _ _ _ _ _ _ _ HI); [|reflexivity]. intros d. cbn [stream]. symmetry. apply app_nil_r.
    - apply Forall_cons_iff in HC. destruct HC as [[C1 C2] HC]. cbn [fst snd] in C1, C2. subst f.
      destruct (step_open cut kd t outs prop chan Ht HL R E0 ids k a c s HI C1 eq_refl) as (ids1 & n1 & a1 & e1 & gs1 & i & D & J1 & J2 & J3 & _).
      destruct (IH _ _ _ _ J1 HC) as (n2 & ids2 & a2 & e2 & gs2 & K1 & K2 & K3 & K4). cbn [ida_run]. rewrite D, K1.
      assert (RS : forall d, updf R c (R c ++ s) d ++ stream d calls = R d ++ stream d ((c, s, false) :: calls)) by (intros d; cbn [stream]; unfold updf; destruct (Z.eqb_spec d c) as [->|N]; [rewrite <- app_assoc; reflexivity|reflexivity]).
      exists (n1 + n2)%nat, ids2, a2, (e1 ++ e2), (gs1 ++ gs2). split; [reflexivity|]. rewrite Nat.add_assoc. split; [apply (inv_ext _ _ _ _ _ _ _ _ _ _ _ K2); [exact RS|reflexivity]|].
      split; [rewrite snks_app, J2; cbn [fst snd]; rewrite K3; reflexivity|]. intros Sf W HW HS. rewrite concat_app. rewrite (K4 Sf W HW), J3.
      + rewrite (rows_are t outs chan Sf W HW ids1 _ k n1); [apply wrows_split| |].
        * destruct J1 as [I1 I2 I3 I4 I5 I6 I7 I8 I9 I10 I11 I12 I13 I14]. pose proof (ids_le t chan HL _ I5 I6). destruct n1 as [|n1]; [auto|]. right. split; [auto|]. split; [auto|]. destruct (Nat.eq_dec (length ids1) t); [auto|]. specialize (I7 ltac:(lia)). lia.
        * intros j d Hd Hj. destruct (HS d) as (rest & E). { apply (i_incl _ _ _ _ _ _ _ _ _ J1). auto. } rewrite E, app_assoc, <- RS, <- app_assoc, word_at_prefix; [reflexivity|]. pose proof (i_len _ _ _ _ _ _ _ _ _ J1 d Hd eq_refl). lia.
      + intros d Hd. destruct (HS d Hd) as (rest & E). exists rest. rewrite E, !app_assoc, RS. reflexivity.
  Qed.
  Lemma buffered_inv : forall R ids k a L c, Inv t outs prop chan R E0 ids k a -> (forall c, In c chan -> length (R c) = L) -> In c chan -> ida_buffered a c = (L mod 4)%nat.
  Proof.
    intros R ids k a L c [I1 I2 I3 I4 I5 I6 I7 I8 I9 I10 I11 I12 I13 I14] HR Hc. unfold ida_buffered. rewrite I4, view_ids. pose proof (ids_le t chan HL _ I5 I6) as Le.
    assert (Q : forall d, In d ids -> (length (skipn (4 * k) (R d)) = L mod 4)%nat).
    { intros d Hd. rewrite skipn_length, HR by auto. destruct (Nat.eq_dec (length ids) t) as [E|E].
      - pose proof (I14 d Hd eq_refl) as L4. rewrite HR in L4 by auto. assert (N : (L - 4 * k < 4)%nat).
        { destruct (Nat.lt_ge_cases (L - 4 * k) 4) as [|G]; [auto|]. exfalso. apply I10. rewrite (I11 (fun _ => eq_refl)), <- E. apply count_true. intros b Hb. unfold legit. cbn [orb]. apply Nat.leb_le. rewrite skipn_length, HR by auto. lia. }
        apply (Nat.mod_unique _ _ k); lia.
      - assert (exists d, In d chan /\ ~ In d ids) as (b & B1 & B2).
        { destruct (incl_or chan ids) as [Q|Q]; [|exact Q]. pose proof (NoDup_incl_length HND Q). lia. }
        destruct (I8 b B2) as [Rb _]. pose proof (HR b B1) as Lb. rewrite Rb in Lb. cbn in Lb. subst L. cbn. lia. }
    destruct (index_of c ids) as [i|] eqn:Ei.
    - unfold ida_queue. destruct (index_of_some _ _ _ Ei) as [H1 H2]. rewrite I4. unfold view. rewrite (nth_indep _ (0%Z, mq_new) ((fun c => (c, qof R E0 k c)) 0%Z)) by (rewrite map_length; lia).
      rewrite (map_nth (fun c => (c, qof R E0 k c))), H2. cbn [snd qof mq_front hd]. apply Q. rewrite <- H2. apply nth_In. auto.
    - apply index_of_none in Ei. destruct (I8 c Ei) as [Rc _]. pose proof (HR c Hc) as Lb. rewrite Rc in Lb. cbn in Lb. subst L. reflexivity.
  Qed.
End Open.

Lemma word_bytes_words : forall s n k, bytes s -> word_bytes (word_at s) k n = firstn (4 * n) (skipn (4 * k) s ++ repeat 0%Z (4 * n)).
Proof.
  intros s n. induction n as [|n IH]; intros k HB; [reflexivity|]. unfold word_bytes in *. cbn [seq map concat]. rewrite IH by auto.
  assert (E : be_bytes 4 (word_at s k) = firstn 4 (skipn (4 * k) s ++ repeat 0%Z 4)).
  { unfold word_at. assert (B : bytes (firstn 4 (skipn (4 * k) s ++ repeat 0%Z 4))) by (apply bytes_firstn, bytes_app; split; [apply bytes_skipn; auto|apply bytes_repeat0]).
    pose proof (be_bytes_val _ B) as Q. rewrite firstn_length, app_length, repeat_length in Q. replace (Nat.min 4 (length (skipn (4 * k) s) + 4)) with 4%nat in Q by lia. exact Q. }
  rewrite E. replace (4 * S n)%nat with (4 + 4 * n)%nat by lia. rewrite firstn_add. f_equal.
  - rewrite repeat_app, app_assoc. rewrite (firstn_app 4 (skipn (4 * k) s ++ repeat 0%Z 4)). rewrite app_length, repeat_length. replace (4 - (length (skipn (4 * k) s) + 4))%nat with 0%nat by lia. cbn [firstn]. rewrite app_nil_r. reflexivity.
  - rewrite skipn_app. replace (skipn 4 (skipn (4 * k) s)) with (skipn (4 * S k) s) by (symmetry; apply skipn_4S).
    apply nth_ext_eq with (d := 0%Z).
    + rewrite !firstn_length, !app_length, skipn_length, !repeat_length, !skipn_length, repeat_length. lia.
    + intros i Hi. rewrite firstn_length in Hi. rewrite !nth_firstn_lt by lia. destruct (Nat.lt_ge_cases i (length (skipn (4 * S k) s))) as [L|L].
      * rewrite !app_nth1 by auto. reflexivity.
      * rewrite !app_nth2 by auto. rewrite nth_skipn_add, !nth_repeat. reflexivity.
Qed.

(* ---------------------------------------------------------------- SecretSharing *)
Lemma data_thr : forall cut kd a c s f a' e, ida_data cut kd a c s f = Some (a', e) -> ia_thr a' = ia_thr a.
Proof.
  intros cut kd a c s f a' e.
  assert (PT : forall a a' e, ida_process cut kd a = Some (a', e) -> ia_thr a' = ia_thr a).
  { clear. intros a a' e H. unfold ida_process in H. destruct (ida_loop _ _ _ _ _ _) as [[[ins rd] rows]|]; [|discriminate].
    match type of H with context [if ?b then ida_flush kd ?x else ?y] => assert (F : ia_thr (fst (if b then ida_flush kd x else y)) = ia_thr a) by (destruct b; [destruct kd; reflexivity|reflexivity]); destruct (if b then ida_flush kd x else y) as [a2 e2] end.
    cbn [fst] in F. destruct (Nat.eqb (ia_fin a) (ia_thr a)).
    - destruct (ida_ends cut kd a2) as [a3 e3]. injection H as <- _. reflexivity.
    - injection H as <- _. exact F. }
  assert (IT : ia_thr (fst (ida_insert a c)) = ia_thr a) by (unfold ida_insert; destruct (index_of c _); [reflexivity|]; destruct (Nat.eqb _ _); reflexivity).
  intros H. unfold ida_data in H. destruct (ida_insert a c) as [a0 i]. cbn [fst] in IT. rewrite <- IT. destruct (Nat.ltb i (ia_thr a0)); [|injection H as <- _; reflexivity].
  match type of H with match ?r with _ => _ end = _ => assert (RT : forall a3 e3, r = Some (a3, e3) -> ia_thr a3 = ia_thr a0) end.
  { intros a3 e3 Q. destruct (Nat.ltb _ 4 && Nat.leb 4 _) in Q; [|injection Q as <- _; reflexivity]. destruct (Nat.eqb _ _) in Q; [|injection Q as <- _; reflexivity]. apply PT in Q. exact Q. }
  match type of H with match ?r with _ => _ end = _ => destruct r as [[a3 e3]|]; [|discriminate] end. specialize (RT a3 e3 eq_refl).
  destruct f; [|injection H as <- _; exact RT]. destruct (Nat.eqb _ 1) in H; [|injection H as <- _; exact RT]. destruct (Nat.eqb _ _) in H; [|injection H as <- _; exact RT].
  match type of H with match ida_process cut kd ?x with _ => _ end = _ => destruct (ida_process cut kd x) as [[a7 e7]|] eqn:P; [|discriminate] end. injection H as <- _. apply PT in P. rewrite P. exact RT.
Qed.
Lemma run_thr : forall cut kd calls a a' e, ida_run cut kd a calls = Some (a', e) -> ia_thr a' = ia_thr a.
Proof.
  intros cut kd. induction calls as [|[[c s] f] calls IH]; intros a a' e H; cbn [ida_run] in H; [injection H as <- _; reflexivity|].
  destruct (ida_data cut kd a c s f) as [[a1 e1]|] eqn:D; [|discriminate]. destruct (ida_run cut kd a1 calls) as [[a2 e2]|] eqn:Q; [|discriminate]. injection H as <- _. rewrite (IH _ _ _ Q). apply (data_thr _ _ _ _ _ _ _ _ D).
Qed.

Definition share_channels (t : nat) : list Z := secret_channel :: map Z.of_nat (seq 0 (t - 1)).
Lemma share_channels_length : forall t, (1 <= t)%nat -> length (share_channels t) = t. Proof. intros. unfold share_channels. cbn [length]. rewrite map_length, seq_length. lia. Qed.
Lemma share_channels_nodup : forall t, (Z.of_nat t <= 2 ^ 32)%Z -> NoDup (share_channels t).
Proof.
  intros t H. unfold share_channels. constructor.
  - intros Q. apply in_map_iff in Q. destruct Q as (i & E & Hi). apply in_seq in Hi. unfold secret_channel in E. change (2 ^ 32)%Z with 4294967296%Z in H. lia.
  - apply FinFun.Injective_map_NoDup; [|apply seq_NoDup]. intros i j. apply Nat2Z.inj.
Qed.
Lemma numbers_word : forall n, (Z.of_nat n <= 2 ^ 32)%Z -> Forall is_word (map Z.of_nat (seq 0 n)).
Proof. intros n H. apply Forall_forall. intros x Hx. apply in_map_iff in Hx. destruct Hx as (i & <- & Hi). apply in_seq in Hi. unfold is_word. lia. Qed.
Lemma numbers_nodup : forall n, NoDup (map Z.of_nat (seq 0 n)). Proof. intros. apply FinFun.Injective_map_NoDup; [|apply seq_NoDup]. intros i j. apply Nat2Z.inj. Qed.
Lemma share_channels_word : forall t, (Z.of_nat t <= 2 ^ 32)%Z -> Forall is_word (share_channels t).
Proof. intros t H. unfold share_channels. constructor; [unfold is_word, secret_channel; lia|]. apply numbers_word. lia. Qed.

Section Sharing.
  Variables (cut : list Z -> list (list Z)) (rnd : nat -> nat -> list Z) (t : nat).
  Hypotheses (Hrnd : forall i n, length (rnd i n) = n /\ bytes (rnd i n)) (Ht : (1 <= t)%nat) (Htw : (Z.of_nat t <= 2 ^ 32)%Z).
  Local Notation chan := (share_channels t).
  (** calls that bring the same number of bytes to every channel *)
  Record good (calls : list (Z * list Z * bool)) (msg : list Z) : Prop := {
    g_open : Forall (open_call chan) calls; g_secret : stream secret_channel calls = msg; g_len : forall c, In c chan -> length (stream c calls) = length msg;
    g_bytes : forall c, In c chan -> c <> secret_channel -> bytes (stream c calls) }.
  Lemma good_nil : good [] []. Proof. constructor; auto; intros; constructor. Qed.
  Lemma good_app : forall a b x y, good a x -> good b y -> good (a ++ b) (x ++ y).
  Proof.
    intros a b x y [A1 A2 A3 A4] [B1 B2 B3 B4]. constructor.
    - apply Forall_app. auto.
    - rewrite stream_app, A2, B2. reflexivity.
    - intros c Hc. rewrite stream_app, !app_length, A3, B3 by auto. reflexivity.
    - intros c Hc N. rewrite stream_app. apply bytes_app. auto.
  Qed.
  Definition rnd_calls (i m n0 len : nat) : list (Z * list Z * bool) := map (fun j => (Z.of_nat j, rnd (n0 + (j - i)) len, false)) (seq i m).
  Lemma share_random_run : forall m a n0 i len, share_random cut rnd a n0 i m len = ida_run cut KRaw a (rnd_calls i m n0 len).
  Proof.
    induction m as [|m IH]; intros a n0 i len; [reflexivity|]. cbn [share_random rnd_calls seq map ida_run]. rewrite Nat.sub_diag, Nat.add_0_r. destruct (ida_data cut KRaw a (Z.of_nat i) (rnd n0 len) false) as [[a1 e1]|]; [|reflexivity].
    rewrite IH. replace (rnd_calls (S i) m (S n0) len) with (map (fun j => (Z.of_nat j, rnd (n0 + (j - i)) len, false)) (seq (S i) m)); [reflexivity|].
    unfold rnd_calls. apply map_ext_in. intros j Hj. apply in_seq in Hj. replace (S n0 + (j - S i))%nat with (n0 + (j - i))%nat by lia. reflexivity.
  Qed.
  Lemma stream_rnd : forall m i n0 len base j, (i <= j < i + m)%nat -> (base <= i)%nat -> stream (Z.of_nat j) (map (fun j => (Z.of_nat j, rnd (n0 + (j - base)) len, false)) (seq i m)) = rnd (n0 + (j - base)) len.
  Proof.
    induction m as [|m IH]; intros i n0 len base j Hj Hb; [lia|]. cbn [seq map stream]. destruct (Z.eqb_spec (Z.of_nat j) (Z.of_nat i)) as [E|E].
    - apply Nat2Z.inj in E. subst j. assert (Q : stream (Z.of_nat i) (map (fun j => (Z.of_nat j, rnd (n0 + (j - base)) len, false)) (seq (S i) m)) = []).
      { assert (G : forall l, (forall x, In x l -> (i < x)%nat) -> stream (Z.of_nat i) (map (fun j => (Z.of_nat j, rnd (n0 + (j - base)) len, false)) l) = []).
        { induction l as [|x l IHl]; intros H; [reflexivity|]. cbn [map stream]. specialize (H x ltac:(cbn; auto)) as Hx. destruct (Z.eqb_spec (Z.of_nat i) (Z.of_nat x)); [lia|]. apply IHl. intros; apply H; cbn; auto. }
        apply G. intros x Hx. apply in_seq in Hx. lia. }
      rewrite Q. apply app_nil_r.
    - cbn [app]. apply IH; lia.
  Qed.
  Lemma stream_none : forall c m i n0 len, (c < 0 \/ Z.of_nat (i + m) <= c)%Z -> stream c (rnd_calls i m n0 len) = [].
  Proof.
    intros c m i n0 len H. unfold rnd_calls. assert (G : forall l, (forall x, In x l -> (Z.of_nat x <> c)%Z) -> stream c (map (fun j => (Z.of_nat j, rnd (n0 + (j - i)) len, false)) l) = []).
    { induction l as [|x l IHl]; intros Q; [reflexivity|]. cbn [map stream]. specialize (Q x ltac:(cbn; auto)) as Hx. destruct (Z.eqb_spec c (Z.of_nat x)); [congruence|]. apply IHl. intros; apply Q; cbn; auto. }
    apply G. intros x Hx. apply in_seq in Hx. lia.
  Qed.
  Definition piece_calls (n0 : nat) (p : list Z) : list (Z * list Z * bool) := (secret_channel, p, false) :: rnd_calls 0 (t - 1) n0 (length p).
  Lemma piece_good : forall n0 p, good (piece_calls n0 p) p.
  Proof.
    intros n0 p. assert (NS : forall j, (j < t - 1)%nat -> (Z.of_nat j <> secret_channel)%Z) by (intros j Hj; unfold secret_channel; change (2 ^ 32)%Z with 4294967296%Z in Htw; lia).
    assert (S0 : stream secret_channel (piece_calls n0 p) = p). { unfold piece_calls. cbn [stream]. rewrite Z.eqb_refl, stream_none, app_nil_r; [reflexivity|]. right. unfold secret_channel. change (2 ^ 32)%Z with 4294967296%Z in Htw. lia. }
    assert (SJ : forall j, (j < t - 1)%nat -> stream (Z.of_nat j) (piece_calls n0 p) = rnd (n0 + j) (length p)).
    { intros j Hj. unfold piece_calls. cbn [stream]. destruct (Z.eqb_spec (Z.of_nat j) secret_channel) as [E|E]; [destruct (NS j Hj E)|]. cbn [app]. unfold rnd_calls. rewrite stream_rnd by lia. f_equal. lia. }
    assert (IN : forall c, In c chan -> c = secret_channel \/ exists j, (j < t - 1)%nat /\ c = Z.of_nat j). { intros c [<-|Hc]; [auto|]. apply in_map_iff in Hc. destruct Hc as (j & <- & Hj). apply in_seq in Hj. right. exists j. split; [lia|reflexivity]. }
    constructor; auto.
    - unfold piece_calls. constructor; [split; [cbn; auto|reflexivity]|]. apply Forall_forall. intros x Hx. apply in_map_iff in Hx. destruct Hx as (j & <- & Hj). split; [|reflexivity]. cbn [fst]. right. apply in_map. exact Hj.
    - intros c Hc. destruct (IN c Hc) as [->|(j & Hj & ->)]; [rewrite S0; reflexivity|]. rewrite SJ by auto. apply Hrnd.
    - intros c Hc N. destruct (IN c Hc) as [->|(j & Hj & ->)]; [contradiction|]. rewrite SJ by auto. apply Hrnd.
  Qed.
  Definition as_share (pad : bool) (n : nat) (r : option (ida * list ida_ev)) : option (sshare * list ida_ev) := match r with None => None | Some (a, e) => Some (SShare a pad n, e) end.
  Lemma share_loop_run : forall fuel s size msg, ia_thr (sh_ida s) = t -> (length msg <= fuel)%nat -> (1 <= size)%nat \/ msg = [] ->
    exists calls n', good calls msg /\ share_loop cut rnd fuel s size msg = as_share (sh_pad s) n' (ida_run cut KRaw (sh_ida s) calls).
  Proof.
    induction fuel as [|fuel IH]; intros s size msg Th Lm Hs.
    { destruct msg; [|cbn in Lm; lia]. exists [], (sh_calls s). split; [apply good_nil|]. cbn. destruct s; reflexivity. }
    destruct msg as [|b msg]. { exists [], (sh_calls s). split; [apply good_nil|]. cbn. destruct s; reflexivity. }
    destruct Hs as [Hs|]; [|discriminate]. cbn [share_loop]. set (len := Nat.min (length (b :: msg)) size). assert (L1 : (1 <= len)%nat) by (unfold len; cbn [length]; lia). set (m := b :: msg) in *.
    assert (LF : length (firstn len m) = len) by (rewrite firstn_length; unfold len; lia).
    set (P := piece_calls (sh_calls s) (firstn len m)).
    assert (RP : ida_run cut KRaw (sh_ida s) P = match ida_data cut KRaw (sh_ida s) secret_channel (firstn len m) false with None => None | Some (a1, e1) =>
      match share_random cut rnd a1 (sh_calls s) 0 (t - 1) len with None => None | Some (a2, e2) => Some (a2, e1 ++ e2) end end).
    { unfold P, piece_calls. cbn [ida_run]. destruct (ida_data cut KRaw (sh_ida s) secret_channel (firstn len m) false) as [[a1 e1]|]; [|reflexivity]. rewrite share_random_run, LF. reflexivity. }
    destruct (ida_data cut KRaw (sh_ida s) secret_channel (firstn len m) false) as [[a1 e1]|] eqn:D.
    - rewrite (data_thr _ _ _ _ _ _ _ _ D), Th. destruct (share_random cut rnd a1 (sh_calls s) 0 (t - 1) len) as [[a2 e2]|] eqn:Rn.
      + rewrite share_random_run in Rn. pose proof (run_thr _ _ _ _ _ _ Rn) as T2. rewrite (data_thr _ _ _ _ _ _ _ _ D), Th in T2.
        destruct (IH (SShare a2 (sh_pad s) (sh_calls s + (t - 1))) size (skipn len m)) as (calls & n' & G & E); [exact T2|rewrite skipn_length; unfold m in *; cbn [length] in *; lia|auto|]. cbn [sh_ida sh_pad] in E. rewrite E.
        exists (P ++ calls), n'. split; [rewrite <- (firstn_skipn len m); apply good_app; [apply piece_good|exact G]|]. rewrite ida_run_app, RP. destruct (ida_run cut KRaw a2 calls) as [[a3 e3]|]; [|reflexivity]. cbn [as_share]. rewrite app_assoc. reflexivity.
      + destruct (IH s size (skipn len m)) as (calls & n' & G & _); [exact Th|rewrite skipn_length; unfold m in *; cbn [length] in *; lia|auto|].
        exists (P ++ calls), 0%nat. split; [rewrite <- (firstn_skipn len m); apply good_app; [apply piece_good|exact G]|]. rewrite ida_run_app, RP. reflexivity.
    - destruct (IH s size (skipn len m)) as (calls & n' & G & _); [exact Th|rewrite skipn_length; unfold m in *; cbn [length] in *; lia|auto|].
      exists (P ++ calls), 0%nat. split; [rewrite <- (firstn_skipn len m); apply good_app; [apply piece_good|exact G]|]. rewrite ida_run_app, RP. reflexivity.
  Qed.
  Lemma share_put_run : forall s msg, ia_thr (sh_ida s) = t -> exists calls n', good calls msg /\ share_put cut rnd s msg = as_share (sh_pad s) n' (ida_run cut KRaw (sh_ida s) calls).
  Proof. intros s msg Th. unfold share_put. apply share_loop_run; auto. destruct msg; [auto|]. left. cbn [length]. lia. Qed.

  Variables (outs : list Z).
  Local Notation E0 := (fun _ : Z => false).
  Definition sinv (prop : Z) (R : Z -> list Z) (a : ida) (L : nat) : Prop := (exists ids k, Inv t outs prop chan R E0 ids k a) /\ forall c, In c chan -> length (R c) = L.
  Lemma sinv_run : forall prop R a L calls msg, sinv prop R a L -> good calls msg -> exists a' e, ida_run cut KRaw a calls = Some (a', e) /\ sinv prop (fun c => R c ++ stream c calls) a' (L + length msg).
  Proof.
    intros prop R a L calls msg [(ids & k & HI) HL] [G1 G2 G3 G4]. destruct (run_inv cut KRaw t outs prop chan Ht (share_channels_length t Ht) calls R ids k a HI G1) as (n & ids' & a' & e & gs & H1 & H2 & _).
    exists a', e. split; [exact H1|]. split; [exists ids', (k + n)%nat; exact H2|]. intros c Hc. rewrite app_length, HL, G3 by auto. reflexivity.
  Qed.
  Lemma share_zeros_run : forall z f prop R s L, (z <= f)%nat -> (z <= 3)%nat -> ((L + z) mod 4 = 0)%nat -> sinv prop R (sh_ida s) L ->
    exists calls n' a e, good calls (repeat 0%Z z) /\ ida_run cut KRaw (sh_ida s) calls = Some (a, e) /\ share_zeros cut rnd f s = Some (SShare a (sh_pad s) n', e).
  Proof.
    induction z as [|z IH]; intros f prop R s L Hf Hz HM HS.
    - destruct HS as [(ids & k & HI) HL]. exists [], (sh_calls s), (sh_ida s), []. split; [apply good_nil|]. split; [reflexivity|]. rewrite Nat.add_0_r in HM.
      pose proof (buffered_inv t outs prop chan Ht (share_channels_nodup t Htw) (share_channels_length t Ht) R ids k (sh_ida s) L secret_channel HI HL ltac:(cbn; auto)) as B. rewrite HM in B. destruct s as [sa sp sn], f; cbn [share_zeros sh_ida] in *; rewrite B; reflexivity.
    - destruct f as [|f]; [lia|]. pose proof HS as HS0. destruct HS as [(ids & k & HI) HL]. cbn [share_zeros].
      rewrite (buffered_inv t outs prop chan Ht (share_channels_nodup t Htw) (share_channels_length t Ht) R ids k (sh_ida s) L secret_channel HI HL ltac:(cbn; auto)).
      destruct (Nat.ltb_spec 0 (L mod 4)) as [B|B].
      2: { exfalso. rewrite Nat.add_mod in HM by lia. replace (L mod 4)%nat with 0%nat in HM by lia. rewrite (Nat.mod_small (S z)), Nat.mod_small in HM by lia. lia. }
      destruct (share_put_run s [0%Z]) as (c1 & n1 & G1 & E1). { apply (i_thr _ _ _ _ _ _ _ _ _ HI). }
      destruct (sinv_run prop R (sh_ida s) L c1 [0%Z]) as (a1 & e1 & R1 & S1); [exact HS0|exact G1|]. rewrite E1, R1. cbn [as_share length] in *.
      destruct (IH f prop (fun c => R c ++ stream c c1) (SShare a1 (sh_pad s) n1) (L + 1)%nat) as (c2 & n2 & a2 & e2 & G2 & R2 & E2); [lia|lia|rewrite <- HM; f_equal; lia|exact S1|].
      cbn [sh_ida sh_pad] in *. rewrite E2. exists (c1 ++ c2), n2, a2, (e1 ++ e2). split; [apply (good_app c1 c2 [0%Z] (repeat 0%Z z)); auto|]. split; [rewrite ida_run_app, R1, R2; reflexivity|reflexivity].
  Qed.
  Lemma share_ends_run : forall m a i, share_ends cut a i m = ida_run cut KRaw a (map (fun j => (Z.of_nat j, [], true)) (seq i m)).
  Proof. induction m as [|m IH]; intros a i; [reflexivity|]. cbn [share_ends seq map ida_run]. destruct (ida_data cut KRaw a (Z.of_nat i) [] true) as [[a1 e1]|]; [|reflexivity]. rewrite IH. reflexivity. Qed.
  Definition end_calls (l : list Z) : list (Z * list Z * bool) := map (fun c => (c, [], true)) l.
  Lemma stream_end_calls : forall l c, stream c (end_calls l) = []. Proof. induction l as [|a l IH]; intros c; [reflexivity|]. cbn [end_calls map stream]. destruct (c =? a)%Z; apply IH. Qed.
  Lemma one_message_ends : forall l, NoDup l -> one_message_each l (end_calls l).
  Proof.
    induction l as [|a l IH]; intros ND; [reflexivity|]. apply NoDup_cons_iff in ND. destruct ND as [N1 N2]. cbn [end_calls map one_message_each]. split; [cbn; auto|].
    cbn [remove]. destruct (Z.eq_dec a a); [|contradiction]. rewrite notin_remove by auto. apply IH; auto.
  Qed.
  Lemma one_message_open : forall open calls l, incl open l -> Forall (open_call open) calls -> forall rest, one_message_each open rest -> one_message_each open (calls ++ rest).
  Proof. intros open calls l HI. induction calls as [|[[c s] f] calls IH]; intros HC rest HR; [exact HR|]. apply Forall_cons_iff in HC. destruct HC as [[C1 C2] HC]. cbn [fst snd] in *. subst f. cbn [app one_message_each]. split; auto. Qed.

  Hypotheses (NDo : NoDup outs) (Wo : Forall is_word outs).
  (** a message in any number of Put2 calls, the last one with messageEnd *)
  Lemma share_puts_run : forall ps s prop R L, sinv prop R (sh_ida s) L ->
    exists calls n' a e, good calls (concat ps) /\ ida_run cut KRaw (sh_ida s) calls = Some (a, e) /\ share_run cut rnd s (map (fun p => (p, 0%Z)) ps) = Some (SShare a (sh_pad s) n', e).
  Proof.
    induction ps as [|p ps IH]; intros s prop R L HS.
    - exists [], (sh_calls s), (sh_ida s), []. split; [apply good_nil|]. split; [reflexivity|]. destruct s; reflexivity.
    - cbn [map share_run]. unfold share_put2. destruct (share_put_run s p) as (c1 & n1 & G1 & E1). { destruct HS as [(ids & k & HI) _]. apply (i_thr _ _ _ _ _ _ _ _ _ HI). }
      destruct (sinv_run prop R (sh_ida s) L c1 p HS G1) as (a1 & e1 & R1 & S1). rewrite E1, R1. cbn [as_share Z.eqb].
      destruct (IH (SShare a1 (sh_pad s) n1) prop _ _ S1) as (c2 & n2 & a2 & e2 & G2 & R2 & E2). cbn [sh_ida sh_pad] in *. rewrite E2.
      exists (c1 ++ c2), n2, a2, (e1 ++ e2). split; [cbn [concat]; apply good_app; auto|]. split; [rewrite ida_run_app, R1, R2; reflexivity|reflexivity].
  Qed.
  Lemma share_run_app : forall l s m, share_run cut rnd s (l ++ m) = match share_run cut rnd s l with None => None | Some (s1, e1) => match share_run cut rnd s1 m with None => None | Some (s2, e2) => Some (s2, e1 ++ e2) end end.
  Proof.
    induction l as [|[p e] l IH]; intros s m; cbn [app share_run].
    - destruct (share_run cut rnd s m) as [[s2 e2]|]; reflexivity.
    - destruct (share_put2 cut rnd s p e) as [[s1 e1]|]; [|reflexivity]. rewrite IH. destruct (share_run cut rnd s1 l) as [[s2 e2]|]; [|reflexivity]. destruct (share_run cut rnd s2 m) as [[s3 e3]|]; [|reflexivity]. rewrite app_assoc. reflexivity.
  Qed.
  Theorem share_message : forall qu prop pad n0 ps p me, bytes (concat ps ++ p) -> me <> 0%Z ->
    let msg := concat ps ++ p in
    exists n1 evs pol, share_run cut rnd (SShare (Ida t [] 0 0 outs (repeat [] (length outs)) qu prop) pad n0) (map (fun p => (p, 0%Z)) ps ++ [(p, me)]) = Some (SShare (Ida t [] 0 0 outs (repeat [] (length outs)) qu (me - 1)) pad n1, evs) /\
      (forall j, (length (pol j) <= t)%nat /\ Forall is_word (pol j) /\ gf_eval (pol j) secret_channel = word_at (pads pad msg) j) /\
      (forall o, In o outs -> sent (Some o) evs = word_bytes (fun j => gf_eval (pol j) o) 0 (words_for (length (pads pad msg))) /\ ended (Some o) evs = if (me - 1 =? 0)%Z then 0%nat else 1%nat) /\
      (forall o, ~ In o outs -> sent (Some o) evs = [] /\ ended (Some o) evs = 0%nat) /\ sent None evs = [] /\ ended None evs = 0%nat.
  Proof.
    intros qu prop pad n0 ps p me HB Hme msg. set (a0 := Ida t [] 0 0 outs (repeat [] (length outs)) qu prop).
    pose proof (share_channels_length t Ht) as HLc. pose proof (share_channels_nodup t Htw) as NDc. pose proof (share_channels_word t Htw) as Wc.
    assert (S0 : sinv prop (fun _ => []) a0 0) by (split; [exists [], 0%nat; apply inv_start; auto|reflexivity]).
    (* the data *)
    destruct (share_puts_run ps (SShare a0 pad n0) prop (fun _ => []) 0%nat S0) as (c1 & n1 & a1 & e1 & G1 & R1 & E1). cbn [sh_ida sh_pad] in *.
    destruct (sinv_run prop _ a0 0 c1 _ S0 G1) as (a1' & e1' & R1' & S1). assert (a1' = a1) by congruence. subst a1'. clear R1' e1'.
    rewrite share_run_app, E1. cbn [share_run]. unfold share_put2.
    destruct (share_put_run (SShare a1 pad n1) p) as (c2 & n2 & G2 & E2). { destruct S1 as [(ids & k & HI) _]. apply (i_thr _ _ _ _ _ _ _ _ _ HI). }
    cbn [sh_ida sh_pad] in *. destruct (sinv_run prop _ a1 _ c2 p S1 G2) as (a2 & e2 & R2 & S2). rewrite E2, R2. cbn [as_share sh_ida sh_pad sh_calls].
    destruct (Z.eqb_spec me 0); [contradiction|]. clear n.
    assert (S2' : sinv (me - 1) (fun c => ([] ++ stream c c1) ++ stream c c2) (ida_set_prop a2 (me - 1)) (0 + length (concat ps) + length p)).
    { destruct S2 as [(ids & k & HI) HLn]. split; [|exact HLn]. exists ids, k. apply (inv_prop _ _ _ _ _ _ _ _ _ _ HI). }
    (* the padding *)
    assert (PD : exists c3 n3 a3 e3, good c3 (if pad then 1%Z :: repeat 0%Z (3 - length msg mod 4) else []) /\ ida_run cut KRaw (ida_set_prop a2 (me - 1)) c3 = Some (a3, e3) /\
      (if pad then match share_put cut rnd (SShare (ida_set_prop a2 (me - 1)) pad n2) [1%Z] with None => None | Some (s2, e2) => match share_zeros cut rnd 4 s2 with None => None | Some (s3, e3) => Some (s3, e2 ++ e3) end end
       else Some (SShare (ida_set_prop a2 (me - 1)) pad n2, [])) = Some (SShare a3 pad n3, e3)).
    { destruct pad.
      - destruct (share_put_run (SShare (ida_set_prop a2 (me - 1)) true n2) [1%Z]) as (c3 & n3 & G3 & E3). { destruct S2' as [(ids & k & HI) _]. apply (i_thr _ _ _ _ _ _ _ _ _ HI). }
        cbn [sh_ida sh_pad] in *. destruct (sinv_run _ _ _ _ c3 [1%Z] S2' G3) as (a3 & e3 & R3 & S3). rewrite E3, R3. cbn [as_share].
        assert (MZ : ((0 + length (concat ps) + length p + length [1%Z] + (3 - length msg mod 4)) mod 4 = 0)%nat).
        { unfold msg. rewrite app_length. cbn [length]. pose proof (Nat.div_mod_eq (length (concat ps) + length p) 4). pose proof (Nat.mod_upper_bound (length (concat ps) + length p) 4). symmetry. apply (Nat.mod_unique _ _ ((length (concat ps) + length p) / 4 + 1)); lia. }
        assert (Z3 : (3 - length msg mod 4 <= 3)%nat) by lia. assert (Z4 : (3 - length msg mod 4 <= 4)%nat) by lia.
        destruct (share_zeros_run _ 4 _ _ (SShare a3 true n3) _ Z4 Z3 MZ S3) as (c4 & n4 & a4 & e4 & G4 & R4 & E4).
        cbn [sh_ida sh_pad] in *. rewrite E4. exists (c3 ++ c4), n4, a4, (e3 ++ e4). split; [apply (good_app c3 c4 [1%Z]); auto|]. split; [rewrite ida_run_app, R3, R4; reflexivity|reflexivity].
      - exists [], n2, (ida_set_prop a2 (me - 1)), []. split; [apply good_nil|]. split; reflexivity. }
    destruct PD as (c3 & n3 & a3 & e3 & G3 & R3 & E3). rewrite E3. cbn [sh_ida sh_pad sh_calls].
    (* the ends *)
    assert (T3 : ia_thr a3 = t). { rewrite (run_thr _ _ _ _ _ _ R3). destruct S2' as [(ids & k & HI) _]. apply (i_thr _ _ _ _ _ _ _ _ _ HI). }
    assert (RE : (match ida_data cut KRaw a3 secret_channel [] true with None => None | Some (a4, e4) => match share_ends cut a4 0 (ia_thr a4 - 1) with None => None | Some (a5, e5) => Some (a5, e4 ++ e5) end end) = ida_run cut KRaw a3 (end_calls chan)).
    { unfold end_calls, share_channels. cbn [map ida_run]. destruct (ida_data cut KRaw a3 secret_channel [] true) as [[a4 e4]|] eqn:D; [|reflexivity]. rewrite share_ends_run, (data_thr _ _ _ _ _ _ _ _ D), T3, map_map. reflexivity. }
    (* the whole round *)
    set (Pre := c1 ++ c2). set (Post := c3 ++ end_calls chan). set (Sf := fun c => stream c (Pre ++ Post)).
    pose proof (good_app _ _ _ _ G1 G2) as GP. fold Pre msg in GP. pose proof (good_app _ _ _ _ GP G3) as GA.
    assert (PM : msg ++ (if pad then 1%Z :: repeat 0%Z (3 - length msg mod 4) else []) = pads pad msg) by (destruct pad; [reflexivity|apply app_nil_r]). rewrite PM in GA.
    assert (SfE : forall c, Sf c = stream c (Pre ++ c3)) by (intros c; unfold Sf, Post; rewrite app_assoc, (stream_app c (Pre ++ c3)), stream_end_calls; apply app_nil_r).
    assert (BM : bytes (pads pad msg)). { rewrite <- PM. apply bytes_app. split; [exact HB|]. destruct pad; [|constructor]. constructor; [unfold byte; lia|apply bytes_repeat0]. }
    destruct (fits_exists t chan Sf Ht HLc NDc Wc) as (pol & HF). { intros c Hc. rewrite SfE. destruct GA as [A1 A2 A3 A4]. destruct (Z.eq_dec c secret_channel) as [->|N]; [rewrite A2; exact BM|auto]. }
    pose proof (fits_word pol t chan Sf outs Ht Wc Wo HF) as HW.
    destruct (run_inv cut KRaw t outs prop chan Ht HLc Pre (fun _ => []) [] 0 a0 (inv_start _ _ _ _ Ht HLc _ _) (g_open _ _ GP)) as (k1 & ids1 & b1 & f1 & gs1 & Q1 & Q2 & Q3 & Q4).
    assert (RP : ida_run cut KRaw a0 Pre = Some (a2, e1 ++ e2)) by (unfold Pre; rewrite ida_run_app, R1, R2; reflexivity). rewrite RP in Q1.
    assert (b1 = a2 /\ f1 = e1 ++ e2) as [-> ->] by (split; congruence).
    specialize (Q4 Sf (fun j o => gf_eval (pol j) o) HW). assert (Q4' : concat gs1 = wrows outs (fun j o => gf_eval (pol j) o) 0 k1) by (apply Q4; intros c _; exists (stream c Post); cbn [app]; unfold Sf; apply stream_app). clear Q4.
    pose proof (inv_prop _ _ _ _ _ _ _ _ _ (me - 1)%Z Q2) as Q2'.
    destruct (round_run cut KRaw t outs (me - 1) chan Ht NDc HLc Sf (fun j o => gf_eval (pol j) o) HW Post chan _ _ _ _ _ Q2') as (k2 & gs2 & o & f1 & f2 & o' & P1 & P2 & P3 & P4 & P5).
    { intros c. tauto. }
    { unfold Post. apply (one_message_open chan c3 chan (incl_refl _) (g_open _ _ G3)). apply one_message_ends. auto. }
    { intros c. unfold Sf. cbn [app]. apply stream_app. }
    unfold st_of in Q3. cbn [ia_oq ia_queue a0] in Q3. destruct (snks_raw t outs prop (fun j o => gf_eval (pol j) o) gs1 qu 0 k1 NDo Q4') as (g1 & U1 & A1 & A2 & A3 & A4). unfold a0 in Q3. cbn [ia_oq ia_queue] in Q3. rewrite U1 in Q3. injection Q3 as O1 O2 O3.
    unfold st_of in P2. unfold ida_set_prop in P2. cbn [ia_oq ia_queue] in P2. rewrite <- O1, <- O2 in P2. destruct (snks_raw t outs (me - 1) (fun j o => gf_eval (pol j) o) gs2 qu k1 k2 NDo P4) as (g2 & U2 & B1 & B2 & B3 & B4). rewrite U2 in P2.
    assert (f1 = g2 /\ o = (repeat [] (length outs), qu)) as [-> ->] by (split; congruence).
    assert (P3' : o' = (repeat [] (length outs), qu) /\ f2 = (if (me - 1 =? 0)%Z then [] else map (fun c => IEnd (Some c)) outs)) by (unfold snk_end in P3; cbn in P3; split; congruence). destruct P3' as [-> ->]. cbn [fst snd] in P1.
    unfold Post in P1. rewrite ida_run_app, R3 in P1. rewrite <- RE in P1.
    destruct (ida_data cut KRaw a3 secret_channel [] true) as [[a4 e4]|]; [|discriminate]. destruct (share_ends cut a4 0 (ia_thr a4 - 1)) as [[a5 e5]|]; [|discriminate]. injection P1 as V1 V2. subst a5.
    exists n3, (e1 ++ e2 ++ e3 ++ e4 ++ e5), pol. split; [rewrite app_nil_r; reflexivity|]. split.
    { intros j. destruct (HF j) as (F1 & F2 & F3). split; [exact F1|]. split; [exact F2|]. rewrite F3 by (cbn; auto). rewrite SfE, (g_secret _ _ GA). reflexivity. }
    assert (WN : (k1 + k2)%nat = words_for (length (pads pad msg))).
    { cbn [Nat.add] in P5. rewrite P5. apply words_needed_is.
      - intros c Hc. rewrite SfE, (g_len _ _ GA c Hc). apply (proj1 (words_for_spec _ _)). reflexivity.
      - destruct (proj1 (words_for_spec _ _) (eq_refl (words_for (length (pads pad msg))))) as [_ [Q|Q]]; [auto|]. right. exists secret_channel. split; [cbn; auto|]. rewrite SfE, (g_len _ _ GA) by (cbn; auto). exact Q. }
    rewrite <- WN. assert (EV : e1 ++ e2 ++ e3 ++ e4 ++ e5 = g1 ++ g2 ++ (if (me - 1 =? 0)%Z then [] else map (fun c => IEnd (Some c)) outs)) by (rewrite V2, O3, <- app_assoc; reflexivity). rewrite EV. clear EV.
    assert (SE : forall c, sent c (if (me - 1 =? 0)%Z then [] else map (fun c => IEnd (Some c)) outs) = []) by (intros c; destruct (me - 1 =? 0)%Z; [reflexivity|apply sent_ends]).
    split; [|split; [|split]].
    + intros x Hx. rewrite !sent_app, !ended_app, SE, app_nil_r, A1, B1, A4, B4 by auto. split; [apply word_bytes_app|]. cbn [Nat.add]. destruct (me - 1 =? 0)%Z; [reflexivity|]. rewrite ended_ends by auto. destruct (in_dec Z.eq_dec x outs); [reflexivity|contradiction].
    + intros x Hx. rewrite !sent_app, !ended_app, SE, app_nil_r, A2, B2, A4, B4 by auto. split; [reflexivity|]. cbn [Nat.add]. destruct (me - 1 =? 0)%Z; [reflexivity|]. rewrite ended_ends by auto. destruct (in_dec Z.eq_dec x outs); [contradiction|reflexivity].
    + rewrite !sent_app, SE, A3, B3. reflexivity.
    + rewrite !ended_app, A4, B4. cbn [Nat.add]. destruct (me - 1 =? 0)%Z; [reflexivity|apply ended_none_ends].
  Qed.
End Sharing.
