From Coq Require Import ZArith List Arith Lia Bool.
From Verif Require Import ChannelModel ChannelSpec.
Import ListNotations.

Lemma chan_eqb_spec : forall a b, chan_eqb a b = true <-> a = b.
Proof. intros. unfold chan_eqb. destruct (list_eq_dec Z.eq_dec a b); split; congruence. Qed.
Lemma chan_eqb_refl : forall a, chan_eqb a a = true.
Proof. intros. apply chan_eqb_spec. reflexivity. Qed.
Lemma chan_eqb_neq : forall a b, a <> b -> chan_eqb a b = false.
Proof. intros a b H. destruct (chan_eqb a b) eqn:E; auto. apply chan_eqb_spec in E. congruence. Qed.

Lemma erase_count : forall {A} (dec : forall x y : A, {x = y} + {x <> y}) (p : A -> bool) a l,
  (forall x, p x = true <-> x = a) -> forall x,
  count_occ dec (erase p l) x = if dec a x then pred (count_occ dec l x) else count_occ dec l x.
Proof.
  intros A dec p a l Hp. induction l as [|y l IH]; intros x; cbn [erase].
  - cbn. destruct (dec a x); reflexivity.
  - destruct (p y) eqn:E.
    + apply Hp in E. subst y. cbn [count_occ]. destruct (dec a x); [reflexivity|reflexivity].
    + assert (y <> a) by (intros ->; specialize (Hp a); rewrite (proj2 Hp eq_refl) in E; discriminate).
      cbn [count_occ]. rewrite IH. destruct (dec y x), (dec a x); subst; try congruence; auto.
Qed.

Definition rev_calls {M} (l : list (call M)) := rev l.

(** The maps hold what the counters say. *)
Definition agrees {M} (s : sw) (l : list (call M)) : Prop :=
  (forall c d o, count_occ route_dec (s_map s) (c, (d, o)) = active l c d o)
  /\ (forall d o, count_occ dflt_dec (s_def s) (d, o) = dactive l d o)
  /\ s_blocked s = false.

Lemma count_snoc : forall {A} dec (l : list A) x y,
  count_occ dec (l ++ [x]) y = if dec x y then S (count_occ dec l y) else count_occ dec l y.
Proof.
  intros. rewrite count_occ_app. cbn. destruct (dec x y); lia.
Qed.

Lemma send_willing : forall {M} it (m : M),
  send it m willing = ([], map (fun r => mkd (fst r) (snd r) m) it, false, willing).
Proof.
  intros M. induction it as [|[d c] it IH]; intros m; cbn [send]; [reflexivity|].
  unfold willing in *. cbn [tl]. rewrite IH. reflexivity.
Qed.

Lemma step_agrees : forall {M} s (l : list (call M)) k s' ds a,
  agrees s l -> step s willing k = (s', ds, a) -> agrees s' (k :: l) /\ a = willing.
Proof.
  intros M s l k s' ds a (A1 & A2 & A3) E. destruct k; cbn [step] in E.
  - injection E as <- <- <-. split; [|reflexivity]. split; [|split]; auto.
    intros. cbn [add_default s_def dactive]. rewrite count_snoc, A2. reflexivity.
  - injection E as <- <- <-. split; [|reflexivity]. split; [|split]; auto.
    intros. cbn [remove_default s_def dactive].
    rewrite (erase_count dflt_dec (dflt_eqb d o) (d, o)).
    + rewrite A2. reflexivity.
    + intros [d1 o1]. unfold dflt_eqb. cbn [fst snd]. rewrite andb_true_iff, Nat.eqb_eq.
      destruct o as [x|], o1 as [y|]; rewrite ?chan_eqb_spec; split; intros H;
        try (destruct H; subst; congruence); inversion H; subst; auto.
  - injection E as <- <- <-. split; [|reflexivity]. split; [|split]; auto.
    intros. cbn [add_route s_map active]. rewrite count_snoc, A1. reflexivity.
  - injection E as <- <- <-. split; [|reflexivity]. split; [|split]; auto.
    intros. cbn [remove_route s_map active].
    rewrite (erase_count route_dec _ (c, (d, o))).
    + rewrite A1. reflexivity.
    + intros [c1 [d1 o1]]. cbn [fst snd]. rewrite !andb_true_iff, Nat.eqb_eq, !chan_eqb_spec.
      split; [intros (-> & -> & ->); reflexivity|]. intros H; inversion H; subst; auto.
  - injection E as <- <- <-. split; [|reflexivity]. split; [|split]; auto.
  - unfold put in E. rewrite A3, send_willing in E. injection E as <- <- <-.
    split; [|reflexivity]. split; [|split]; auto.
  - unfold put_modifiable in E.
    assert (agrees s (SendModifiable c m :: l)) by (split; [|split]; auto).
    destruct (it_reset s c) as [|r [|r2 rs]] eqn:EI.
    + unfold put in E. rewrite A3, EI, send_willing in E. injection E as <- <- <-.
      split; [|reflexivity]. split; [|split]; auto.
    + cbn in E. injection E as <- <- <-. auto.
    + unfold put in E. rewrite A3, EI, send_willing in E. injection E as <- <- <-.
      split; [|reflexivity]. split; [|split]; auto.
Qed.

Lemma run_agrees : forall {M} (l : list (call M)) s l0 s' r a,
  agrees s l0 -> run s willing l = (s', r, a) -> agrees s' (rev l ++ l0) /\ a = willing.
Proof.
  intros M. induction l as [|k l IH]; intros s l0 s' r a A E; cbn [run] in E.
  - injection E as <- <- <-. auto.
  - destruct (step s willing k) as [[s1 ds] a1] eqn:E1.
    destruct (step_agrees _ _ _ _ _ _ A E1) as [A1 ->].
    destruct (run s1 willing l) as [[s2 r2] a2] eqn:E2. injection E as <- <- <-.
    cbn [rev]. rewrite <- app_assoc. apply (IH s1 (k :: l0) _ _ _ A1 E2).
Qed.

(** Counting the deliveries. *)
Lemma copies_map : forall {M} (m : M) it d o,
  copies (map (fun r => mkd (fst r) (snd r) m) it) d o
  = length (filter (fun r => (fst r =? d) && chan_eqb (snd r) o) it).
Proof.
  intros. unfold copies. induction it as [|[a b] it IH]; cbn [map filter d_to d_chan fst snd]; auto.
  destruct ((a =? d) && chan_eqb b o); cbn [length]; auto.
Qed.

Lemma map_count : forall (l : list (chan * route)) c d o,
  length (filter (fun r => (fst r =? d) && chan_eqb (snd r) o)
           (map snd (filter (fun e => chan_eqb (fst e) c) l)))
  = count_occ route_dec l (c, (d, o)).
Proof.
  induction l as [|[c1 [d1 o1]] l IH]; intros; [reflexivity|].
  cbn [filter fst count_occ]. destruct (chan_eqb c1 c) eqn:E1.
  - apply chan_eqb_spec in E1. subst c1. cbn [map filter snd fst].
    destruct ((d1 =? d) && chan_eqb o1 o) eqn:E2.
    + apply andb_true_iff in E2 as [E2 E3]. apply Nat.eqb_eq in E2. apply chan_eqb_spec in E3. subst.
      cbn [length]. rewrite IH. match goal with |- context [if ?x then _ else _] => destruct x as [|Q] end; [reflexivity|exfalso; apply Q; reflexivity].
    + rewrite IH. match goal with |- context [if ?x then _ else _] => destruct x as [Q|] end; [|reflexivity].
      inversion Q; subst. rewrite Nat.eqb_refl, chan_eqb_refl in E2. discriminate.
  - rewrite IH. match goal with |- context [if ?x then _ else _] => destruct x as [Q|] end; [|reflexivity].
    inversion Q; subst. rewrite chan_eqb_refl in E1. discriminate.
Qed.

Lemma def_count : forall (l : list dflt) c d o,
  length (filter (fun r => (fst r =? d) && chan_eqb (snd r) o)
           (map (fun e => (fst e, match snd e with Some x => x | None => c end)) l))
  = count_occ dflt_dec l (d, Some o)
    + if list_eq_dec Z.eq_dec o c then count_occ dflt_dec l (d, None) else 0.
Proof.
  induction l as [|[d1 o1] l IH]; intros c d o.
  - cbn. destruct (list_eq_dec Z.eq_dec o c); reflexivity.
  - cbn [map filter fst snd count_occ]. specialize (IH c d o).
    destruct (Nat.eqb_spec d1 d) as [->|Hd]; cbn [andb].
    + destruct o1 as [x|].
      * destruct (dflt_dec (d, Some x) (d, None)); [congruence|].
        destruct (dflt_dec (d, Some x) (d, Some o)) as [Q|Q].
        -- inversion Q; subst. rewrite chan_eqb_refl. cbn [length]. rewrite IH. reflexivity.
        -- rewrite chan_eqb_neq by congruence. rewrite IH. reflexivity.
      * destruct (dflt_dec (d, None) (d, Some o)); [congruence|].
        destruct (dflt_dec (d, None) (d, None)); [|congruence].
        destruct (list_eq_dec Z.eq_dec o c) as [->|Hc].
        -- rewrite chan_eqb_refl. cbn [length]. rewrite IH. lia.
        -- rewrite chan_eqb_neq by congruence. rewrite IH. reflexivity.
    + destruct (dflt_dec (d1, o1) (d, Some o)); [congruence|].
      destruct (dflt_dec (d1, o1) (d, None)); [congruence|]. exact IH.
Qed.

Lemma routed_iff : forall {M} s (l : list (call M)) c, agrees s l ->
  routed l c <-> filter (fun e => chan_eqb (fst e) c) (s_map s) <> [].
Proof.
  intros M s l c (A1 & _). split.
  - intros (d & o & H) E. rewrite <- A1, <- map_count, E in H. apply H. reflexivity.
  - intros H. destruct (filter (fun e => chan_eqb (fst e) c) (s_map s)) as [|[c1 [d o]] t] eqn:E; [congruence|].
    assert (IN : In (c1, (d, o)) (filter (fun e => chan_eqb (fst e) c) (s_map s))) by (rewrite E; left; reflexivity).
    apply filter_In in IN as [IN1 IN2]. cbn in IN2. apply chan_eqb_spec in IN2. subst c1.
    exists d, o. rewrite <- A1. apply (count_occ_In route_dec) in IN1. lia.
Qed.

Lemma it_reset_copies : forall {M} s (l : list (call M)) c d o, agrees s l ->
  copies_due l c d o (length (filter (fun r => (fst r =? d) && chan_eqb (snd r) o) (it_reset s c))).
Proof.
  intros M s l c d o A. pose proof (routed_iff s l c A) as RI. destruct A as (A1 & A2 & A3).
  unfold it_reset. split; intros H.
  - apply RI in H. destruct (filter (fun e => chan_eqb (fst e) c) (s_map s)) eqn:E; [congruence|].
    rewrite <- E, map_count. apply A1.
  - destruct (filter (fun e => chan_eqb (fst e) c) (s_map s)) eqn:E.
    + rewrite def_count, !A2. reflexivity.
    + exfalso. apply H, RI. congruence.
Qed.

(** Insisting. *)
Lemma send_spec : forall {M} it (m : M) a r ds b a',
  send it m a = (r, ds, b, a') ->
  exists done, it = done ++ r /\ ds = map (fun x : route => mkd (fst x) (snd x) m) done
    /\ (b = false -> r = [])
    /\ length (filter (fun x => x) a') + (if b then 1 else 0) <= length (filter (fun x => x) a).
Proof.
  intros M. induction it as [|[d c] it IH]; intros m a r ds b a' E; cbn [send] in E.
  - injection E as <- <- <- <-. exists []. repeat split; auto. lia.
  - destruct a as [|[|] a].
    + cbn [tl] in E. destruct (send it m []) as [[[r1 ds1] b1] a1] eqn:E1. injection E as <- <- <- <-.
      destruct (IH _ _ _ _ _ _ E1) as (dn & -> & -> & Hb & Hl).
      exists ((d, c) :: dn). repeat split; auto.
    + injection E as <- <- <- <-. exists []. repeat split; auto; try discriminate. cbn. lia.
    + cbn [tl] in E. destruct (send it m a) as [[[r1 ds1] b1] a1] eqn:E1. injection E as <- <- <- <-.
      destruct (IH _ _ _ _ _ _ E1) as (dn & -> & -> & Hb & Hl).
      exists ((d, c) :: dn). repeat split; auto.
Qed.

Lemma insist_spec : forall {M} n s c (m : M) a,
  length (filter (fun x => x) a) < n ->
  exists s', insist n s c m a
     = Some (s', map (fun x : route => mkd (fst x) (snd x) m) (if s_blocked s then s_it s else it_reset s c))
    /\ s_map s' = s_map s /\ s_def s' = s_def s /\ s_blocked s' = false.
Proof.
  intros M. induction n as [|n IH]; intros s c m a Hn; [lia|].
  cbn [insist]. unfold put. generalize (if s_blocked s then s_it s else it_reset s c). intros it.
  destruct (send it m a) as [[[r ds] b] a'] eqn:E.
  destruct (send_spec _ _ _ _ _ _ _ E) as (dn & -> & -> & Hb & Hl).
  cbn [s_blocked]. destruct b.
  - destruct (IH (mksw (s_map s) (s_def s) r true) c m a' ltac:(lia)) as (s' & E' & Q1 & Q2 & Q3).
    cbn [s_blocked s_it s_map s_def] in *. rewrite E'. exists s'. rewrite map_app. auto.
  - rewrite (Hb eq_refl), app_nil_r. eexists. split; [reflexivity|]. auto.
Qed.
