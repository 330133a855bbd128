(** Proofs about constructed ASN.1 objects, re-encoding and key containers. *)
From Coq Require Import ZArith List Bool Arith Lia.
From Verif Require Import Base AsnModel AsnSpec AsnProofs.
Import ListNotations.
Local Open Scope Z_scope.

Lemma enter_skip : forall n l s, s_skip n (enter (Some l) s) = enter (Some (l - n)) (s_skip n s).
Proof. reflexivity. Qed.
Lemma enter_skip_none : forall n s, s_skip n (enter None s) = enter None (s_skip n s).
Proof. reflexivity. Qed.
Lemma enter_ok : forall s l, src_ok s -> 0 <= l -> src_ok (enter (Some l) s).
Proof. intros s l [A B] L. split; auto. constructor; auto. Qed.
Lemma enter_none_ok : forall s, src_ok s -> src_ok (enter None s).
Proof. intros s [A B]. split; auto. constructor; auto. Qed.
Lemma enter_count : forall s l, s_count (enter (Some l) s) = Z.min l (s_count s).
Proof. reflexivity. Qed.
Lemma enter_none_count : forall s, s_count (enter None s) = s_count s.
Proof. reflexivity. Qed.
Lemma enter_none_visible : forall s, visible (enter None s) = visible s.
Proof. reflexivity. Qed.
Lemma enter_visible : forall s c rest, src_ok s -> visible s = c ++ rest -> visible (enter (Some (len c)) s) = c.
Proof.
  intros s c rest H V. pose proof (len_visible s H) as L. rewrite V, len_app in L. pose proof (len_nonneg c). pose proof (len_nonneg rest).
  unfold visible at 1. rewrite enter_count, Z.min_l by lia. cbn [s_in enter]. unfold visible in V.
  rewrite <- (firstn_skipn (Z.to_nat (s_count s)) (s_in s)), V, <- app_assoc. unfold len. rewrite Nat2Z.id. apply firstn_app_exact.
Qed.
Lemma enter_close : forall s, ber_close (enter (Some 0) s) = Some s.
Proof. intros [i fr]. reflexivity. Qed.

Lemma open_reads : forall tag le c rest s, src_ok s -> ber_len (len c) le -> len c < 2 ^ 64 -> visible s = tag :: le ++ c ++ rest ->
  let s2 := s_skip (len (tag :: le)) s in
  ber_open tag s = Some (enter (Some (len c)) s2) /\ src_ok s2 /\ visible s2 = c ++ rest /\
  src_ok (enter (Some (len c)) s2) /\ visible (enter (Some (len c)) s2) = c.
Proof.
  intros tag le c rest s H B L V. destruct (header tag le c rest s H B L V) as (s1 & s2 & G & E & -> & O & W). cbv zeta.
  unfold ber_open. rewrite G, Z.eqb_refl, E. cbn [negb andb]. split; auto. split; auto. split; auto.
  split; [apply enter_ok; auto; apply len_nonneg|]. apply (enter_visible _ c rest); auto.
Qed.

(** Opening an object, decoding its contents, closing it *)
Definition within {A} (tag : Z) (f : src -> option (A * src)) (s : src) : option (A * src) :=
  bind1 (ber_open tag s) (fun s => bind (f s) (fun v s => bind1 (ber_close s) (fun s => Some (v, s)))).

Definition reads_all {A} (f : src -> option (A * src)) (v : A) (c : list Z) : Prop :=
  forall s, src_ok s -> visible s = c -> f s = Some (v, s_skip (len c) s).

Lemma reads_back_all : forall {A} (f : src -> option (A * src)) v c, reads_back f v c -> reads_all f v c.
Proof. intros A f v c R s H V. destruct (R s [] H) as (X & _); auto. rewrite app_nil_r. auto. Qed.

Lemma within_reads : forall {A} tag (f : src -> option (A * src)) v c le, reads_all f v c -> ber_len (len c) le -> len c < 2 ^ 64 ->
  reads_back (within tag f) v (tag :: le ++ c).
Proof.
  intros A tag f v c le R B L s rest H V.
  assert (V' : visible s = tag :: le ++ c ++ rest) by (rewrite V; cbn [app]; rewrite <- app_assoc; auto).
  destruct (open_reads tag le c rest s H B L V') as (E & O & W & O' & W'). cbv zeta in *. unfold within. rewrite E. cbn [bind1].
  rewrite (R _ O' W'). cbn [bind]. rewrite enter_skip, Z.sub_diag, enter_close. cbn [bind1].
  rewrite skip_skip by apply len_nonneg. rewrite <- len_app. split; auto. apply visible_skip_app; auto.
Qed.

Lemma reader_within : forall {A} tag (f : src -> option (A * src)), reader f -> reader (within tag f).
Proof.
  intros A tag f R s v s' H E. unfold within in E. destruct (ber_open tag s) as [s1|] eqn:Op; [|discriminate]. cbn [bind1] in E.
  destruct (f s1) as [(v' & s2)|] eqn:F; [|discriminate]. cbn [bind] in E. destruct (ber_close s2) as [s3|] eqn:C; [|discriminate]. cbn [bind1] in E.
  injection E as -> <-. unfold ber_open in Op. destruct (s_get s) as [(b & t1)|] eqn:G; [|discriminate].
  destruct (Z.eqb_spec b tag); [subst b|discriminate]. destruct (ber_length_lw t1) as [| |d l t2] eqn:Le; try discriminate.
  destruct (negb d && (Z.land tag 32 =? 0)); [discriminate|]. injection Op as <-. destruct d.
  - destruct (header_sound tag s t1 l t2 H G Le) as (le & rest & B & _ & L0 & V & S2 & O & W). fold (enter (Some l) t2) in F.
    destruct (R (enter (Some l) t2) v s2 (enter_ok t2 l O L0) F) as (n & N & ->). rewrite enter_count in N.
    rewrite enter_skip in C. unfold ber_close in C. cbn [s_frames enter] in C. destruct (Z.eqb_spec (l - n) 0); [|discriminate]. injection C as <-.
    cbn [s_in enter]. exists (len (tag :: le) + n). pose proof (len_visible s H) as Cs. pose proof (len_visible t2 O) as Ct. rewrite W in Ct.
    assert (Vs : visible s = (tag :: le) ++ rest) by auto. rewrite Vs, len_app in Cs.
    pose proof (len_nonneg (tag :: le)). split; [lia|]. rewrite <- skip_skip by lia. rewrite S2.
    reflexivity.
  - unfold ber_length_lw in Le. destruct (visible s) as [|x r] eqn:V; [rewrite get_nil in G by auto; discriminate|].
    destruct (get_cons s x r H V) as (G' & O & W). rewrite G' in G. injection G as -> <-.
    destruct r as [|y r]; [rewrite get_nil in Le by auto; discriminate|]. destruct (get_cons _ y r O W) as (G2 & O2 & W2). rewrite G2 in Le.
    destruct (Z.land y 128 =? 0); [discriminate|]. destruct (Z.land y 127 =? 0).
    2:{ exfalso. revert Le. generalize (Z.to_nat (Z.land y 127)) 0 (s_skip 1 (s_skip 1 s)). clear. intros n. induction n; intros a u; cbn [length_loop]; [discriminate|].
        destruct (negb _); [discriminate|]. destruct (s_get u) as [(p & q)|]; [apply IHn|discriminate]. }
    injection Le as _ <-. rewrite skip_skip in * by lia. change (1 + 1) with 2 in *. fold (enter None (s_skip 2 s)) in F.
    destruct (R (enter None (s_skip 2 s)) v s2 (enter_none_ok _ O2) F) as (n & N & ->). rewrite enter_none_count in N.
    pose proof (len_visible s H) as Cs. rewrite V, !len_cons in Cs. pose proof (len_nonneg r).
    rewrite skip_count in N by (auto; lia). rewrite enter_skip_none in C. unfold ber_close in C. cbn [s_frames s_in enter] in C.
    replace (mkSrc (s_in (s_skip n (s_skip 2 s))) (s_frames (s_skip n (s_skip 2 s)))) with (s_skip n (s_skip 2 s)) in C by (destruct (s_skip n (s_skip 2 s)); reflexivity).
    rewrite skip_skip in C by lia. set (u := s_skip (2 + n) s) in *. assert (Ou : src_ok u) by (apply skip_ok; auto; lia).
    assert (Cu : s_count u = s_count s - (2 + n)) by (apply skip_count; auto; lia). pose proof (count_bounds u Ou).
    unfold s_getn in C. destruct (list_eq_dec _ _ _) as [E2|]; [|discriminate]. injection C as <-.
    pose proof (f_equal (@length Z) E2) as F2. rewrite firstn_length in F2. cbn [length] in F2.
    exists (2 + n + Z.min 2 (s_count u)). split; [lia|]. unfold u. rewrite skip_skip by (fold u; lia). reflexivity.
Qed.

(** A definite object that is cut short is refused whatever the reader of its contents does. *)
Lemma within_prefix : forall {A} tag (f : src -> option (A * src)) c le, reader f -> ber_len (len c) le -> len c < 2 ^ 64 ->
  refuses_prefixes (within tag f) (tag :: le ++ c).
Proof.
  intros A tag f c le R B L s missing H M V. unfold within, ber_open.
  destruct (header_prefix _ le _ missing s H B L M V) as [G|(s1 & G & X)]; rewrite G; auto.
  rewrite Z.eqb_refl. destruct X as [X|[X|(s2 & X & S2 & O & C)]]; rewrite X; auto. cbn [negb andb bind1].
  fold (enter (Some (len c)) s2). destruct (f _) as [(v & s3)|] eqn:F; auto. cbn [bind].
  destruct (R _ v s3 (enter_ok s2 _ O (len_nonneg c)) F) as (n & N & ->). rewrite enter_count in N. rewrite enter_skip. unfold ber_close. cbn [s_frames enter].
  destruct (Z.eqb_spec (len c - n) 0); auto. lia.
Qed.

Lemma within_unread : forall {A} tag (f : src -> option (A * src)) v c d le, reads_back f v c -> d <> [] -> ber_len (len (c ++ d)) le -> len (c ++ d) < 2 ^ 64 ->
  forall s rest, src_ok s -> visible s = (tag :: le ++ c ++ d) ++ rest -> within tag f s = None.
Proof.
  intros A tag f v c d le R D B L s rest H V.
  assert (V' : visible s = tag :: le ++ (c ++ d) ++ rest) by (rewrite V; cbn [app]; rewrite <- !app_assoc; auto).
  destruct (open_reads tag le (c ++ d) rest s H B L V') as (E & O & W & O' & W'). cbv zeta in *. unfold within. rewrite E. cbn [bind1].
  destruct (R _ d O' W') as (F & _). rewrite F. cbn [bind]. rewrite enter_skip. unfold ber_close. cbn [s_frames enter].
  rewrite len_app. pose proof (len_pos d D). destruct (Z.eqb_spec (len c + len d - len c) 0); auto. lia.
Qed.

(* ------------------------------------------------------------------------- combining readers *)

Lemma reader_bind : forall {A B} (f : src -> option (A * src)) (g : A -> src -> option (B * src)), reader f -> (forall a, reader (g a)) ->
  reader (fun s => bind (f s) g).
Proof.
  intros A B f g F G s v s' H E. destruct (f s) as [(a & s1)|] eqn:X; [|discriminate]. cbn [bind] in E.
  destruct (F s a s1 H X) as (n & N & ->). destruct (G a (s_skip n s) v s' (skip_ok s n H N) E) as (m & M & ->).
  rewrite skip_count in M by auto. exists (n + m). rewrite skip_skip by lia. split; auto. lia.
Qed.
Lemma reader_ret : forall {A} (v : A), reader (fun s => Some (v, s)).
Proof. intros A v s v' s' H E. injection E as _ <-. exists 0. rewrite skip_0. pose proof (count_bounds s H). split; auto. lia. Qed.
Lemma reader_none : forall {A}, reader (fun s => @None (A * src)).
Proof. intros A s v s' H E. discriminate. Qed.
Lemma reader_get : reader s_get.
Proof.
  intros s v s' H E. unfold s_get in E. destruct (Z.leb_spec 1 (s_count s)); [|discriminate]. injection E as _ <-. exists 1. split; auto. lia.
Qed.
Lemma reader_ext : forall {A} (f g : src -> option (A * src)), (forall s, f s = g s) -> reader f -> reader g.
Proof. intros A f g E R s v s' H X. rewrite <- E in X. eapply R; eauto. Qed.
Lemma reader_consumes : forall {A} (f : src -> option (A * src)),
  (forall s v s', src_ok s -> f s = Some (v, s') -> exists e rest, visible s = e ++ rest /\ s' = s_skip (len e) s) -> reader f.
Proof.
  intros A f X s v s' H E. destruct (X s v s' H E) as (e & rest & V & ->). exists (len e). split; auto.
  rewrite <- (len_visible s H), V, len_app. pose proof (len_nonneg e). pose proof (len_nonneg rest). lia.
Qed.
Lemma reader_oid : forall sz, reader (oid_decode sz).
Proof. intros. apply reader_consumes. intros s v s' H E. destruct (oid_sound sz s v s' H E) as (le & b & rest & _ & V & ->). eauto. Qed.
Lemma reader_oid_check : forall sz o, reader (oid_decode_check sz o).
Proof.
  intros sz o s v s' H E. unfold oid_decode_check in E. destruct (oid_decode sz s) as [(w & s1)|] eqn:X; [|discriminate].
  destruct (list_eq_dec _ _ _); [|discriminate]. injection E as _ <-. exact (reader_oid sz s w s1 H X).
Qed.
Lemma reader_unsigned : forall sz n tag a b, reader (ber_unsigned sz n tag a b).
Proof. intros. apply reader_consumes. intros s v s' H E. destruct (unsigned_sound sz n tag a b s v s' H E) as (le & c & rest & _ & V & -> & _). eauto. Qed.
Lemma reader_string : forall sz tag, reader (ber_string sz tag).
Proof. intros. apply reader_consumes. intros s v s' H E. destruct (string_sound sz tag s v s' H E) as (le & rest & _ & V & ->). eauto. Qed.

Lemma reads_bind : forall {A B} (f : src -> option (A * src)) (g : A -> src -> option (B * src)) a v c d,
  reads_back f a c -> reads_all (g a) v d -> reads_all (fun s => bind (f s) g) v (c ++ d).
Proof.
  intros A B f g a v c d F G s H V. destruct (F s d H V) as (X & W). rewrite X. cbn [bind].
  destruct (visible_skip_app s c d H V) as (O & _). rewrite (G _ O W). rewrite skip_skip by apply len_nonneg. rewrite len_app. reflexivity.
Qed.
Lemma reads_ret : forall {A} (v : A), reads_all (fun s => Some (v, s)) v [].
Proof. intros A v s H V. rewrite len_nil, skip_0. reflexivity. Qed.
Lemma reads_get : forall b, reads_back s_get b [b].
Proof. intros b s rest H V. destruct (get_cons s b rest H V) as (G & _ & W). auto. Qed.
Lemma reads_ext : forall {A} (f g : src -> option (A * src)) v c, (forall s, f s = g s) -> reads_back f v c -> reads_back g v c.
Proof. intros A f g v c E R s rest H V. rewrite <- E. apply R; auto. Qed.
Lemma refuses_ext : forall {A} (f g : src -> option (A * src)) c, (forall s, f s = g s) -> refuses_prefixes f c -> refuses_prefixes g c.
Proof. intros A f g c E R s m H M V. rewrite <- E. eapply R; eauto. Qed.

Lemma wrap_string : forall tag c, der_wrap tag c = der_string tag c.
Proof. reflexivity. Qed.
Lemma len_wrap : forall tag c, len c < 2 ^ 64 -> exists le, ber_len (len c) le /\ der_wrap tag c = tag :: le ++ c.
Proof. intros tag c L. rewrite wrap_string. apply der_string_is. auto. Qed.
Lemma len_wrap_ge : forall tag c, len c <= len (der_wrap tag c).
Proof. intros. unfold der_wrap. rewrite len_cons, len_app. pose proof (len_nonneg (der_length (Z.of_nat (length c)))). lia. Qed.

(* ------------------------------------------------------------------------- re-encoding *)

Fixpoint ber_depth (b : ber) : nat :=
  match b with
  | Definite _ _ _ => 1
  | Indefinite _ kids => S ((fix all l := match l with [] => 1%nat | k :: r => S (Nat.max (ber_depth k) (all r)) end) kids)
  end.
Fixpoint kids_depth (l : list ber) : nat := match l with [] => 1%nat | k :: r => S (Nat.max (ber_depth k) (kids_depth r)) end.
Fixpoint kids_wf (l : list ber) : Prop := match l with [] => True | k :: r => ber_wf k /\ firstn 2 (ber_bytes k) <> [0; 0] /\ kids_wf r end.
Fixpoint kids_der (l : list ber) (es : list (list Z)) : Prop :=
  match l, es with [], [] => True | k :: r, x :: es => ber_der k x /\ kids_der r es | _, _ => False end.

Lemma ber_ind2 : forall (P : ber -> Prop), (forall t le c, P (Definite t le c)) -> (forall t kids, Forall P kids -> P (Indefinite t kids)) -> forall b, P b.
Proof.
  intros P HD HI. fix F 1. intros [t le c|t kids]; [apply HD|]. apply HI. induction kids; constructor; auto.
Qed.

Lemma peek_cons : forall s b r, src_ok s -> visible s = b :: r -> s_peek s = Some b.
Proof.
  intros s b r H V. destruct (get_cons s b r H V) as (G & _). unfold s_get, s_peek in *. destruct (1 <=? s_count s); congruence.
Qed.

Lemma peek2_app : forall s a b r, src_ok s -> visible s = a :: b :: r -> s_peek2 s = [a; b].
Proof.
  intros s a b r H V. pose proof (getn_app s [a; b] r H V) as G. unfold s_getn in G. change (len [a; b]) with 2 in G. injection G as G _. exact G.
Qed.

Lemma at_end_none : forall s, ber_at_end (enter None s) = if list_eq_dec Z.eq_dec (s_peek2 s) [0; 0] then true else false.
Proof. intros [i fr]. reflexivity. Qed.

Lemma close_none : forall s rest, src_ok s -> visible s = [0; 0] ++ rest -> ber_close (enter None s) = Some (s_skip 2 s).
Proof.
  intros s rest H V. unfold ber_close. cbn [s_frames enter s_in]. replace (mkSrc (s_in s) (s_frames s)) with s by (destruct s; reflexivity).
  rewrite (getn_app s [0; 0] rest H V : s_getn 2 s = _). destruct (list_eq_dec Z.eq_dec [0; 0] [0; 0]); [reflexivity|congruence].
Qed.

Lemma open_indefinite : forall tag s r, src_ok s -> byte tag -> Z.testbit tag 5 = true -> visible s = tag :: 128 :: r ->
  ber_open tag s = Some (enter None (s_skip 2 s)).
Proof.
  intros tag s r H Bt T V. destruct (get_cons s tag _ H V) as (G & O & W). destruct (get_cons _ 128 r O W) as (G2 & O2 & W2).
  unfold ber_open. rewrite G, Z.eqb_refl. unfold ber_length_lw. rewrite G2. change (Z.land 128 128 =? 0) with false. change (Z.land 128 127) with 0. cbv iota. change (0 =? 0) with true.
  cbv iota. rewrite skip_skip by lia. replace (Z.land tag 32 =? 0) with false; [reflexivity|]. symmetry. apply Z.eqb_neq. intro E.
  pose proof (f_equal (fun x => Z.testbit x 5) E) as F. cbn beta in F. rewrite Z.land_spec, T in F. cbn in F. discriminate.
Qed.

Lemma ber_bytes_2 : forall b, ber_wf b -> exists x y r, ber_bytes b = x :: y :: r.
Proof.
  intros [t le c|t kids] W; cbn [ber_bytes]; eauto. destruct W as (_ & B & _). destruct B as [(-> & _)|(ds & -> & _)]; cbn [app]; eauto.
Qed.

Lemma reencode_reads : forall b, ber_wf b -> forall e, ber_der b e -> len e < 2 ^ 64 -> forall fuel s rest, src_ok s -> (ber_depth b <= fuel)%nat -> visible s = ber_bytes b ++ rest ->
  der_reencode fuel s = Some (e, s_skip (len (ber_bytes b)) s).
Proof.
  induction b as [tag le c|tag kids IH] using ber_ind2; intros Wf e De Le fuel s rest H Fu V.
  - destruct Wf as (Bt & Bl & Bc & L). destruct fuel as [|f]; [cbn in Fu; lia|]. cbn [der_reencode]. cbn [ber_bytes] in *.
    assert (V' : visible s = tag :: le ++ c ++ rest) by (rewrite V; cbn [app]; rewrite <- app_assoc; auto).
    rewrite (peek_cons s tag _ H V'). destruct (open_reads tag le c rest s H Bl L V') as (E & O & W & O' & W'). cbv zeta in *. rewrite E. cbn [s_frames enter].
    rewrite (getn_app _ c [] O' ltac:(rewrite app_nil_r; auto)). rewrite enter_skip, Z.sub_diag, enter_close. rewrite skip_skip by apply len_nonneg.
    change (tag :: le ++ c) with ((tag :: le) ++ c). rewrite len_app. f_equal. f_equal.
    destruct De as (le' & De & ->). unfold der_wrap. f_equal. f_equal. apply (der_len_inj (len c)); auto.
    apply der_length_spec. pose proof (len_nonneg c). unfold len in *. lia.
  - destruct Wf as (Bt & T & Wk). fold (kids_wf kids) in Wk. destruct De as (es & Dk & De). fold (kids_der kids es) in Dk.
    cbn [ber_bytes] in *. cbn [ber_depth] in Fu. fold (kids_depth kids) in Fu. destruct fuel as [|f]; [lia|]. cbn [der_reencode].
    cbn [app] in V. rewrite (peek_cons s tag _ H V). rewrite (open_indefinite tag s _ H Bt T V). cbn [s_frames enter]. 
    destruct (visible_skip_app s [tag; 128] ((concat (map ber_bytes kids) ++ [0; 0]) ++ rest) H V) as (O & W). change (len [tag; 128]) with 2 in *.
    rewrite <- app_assoc in W.
    assert (Lc : len (concat es) < 2 ^ 64). { destruct De as (le' & _ & ->). rewrite len_cons, len_app in Le. pose proof (len_nonneg le'). lia. }
    assert (K : forall kids es, Forall (fun b => ber_wf b -> forall e, ber_der b e -> len e < 2 ^ 64 -> forall fuel s rest, src_ok s -> (ber_depth b <= fuel)%nat -> visible s = ber_bytes b ++ rest ->
          der_reencode fuel s = Some (e, s_skip (len (ber_bytes b)) s)) kids -> kids_wf kids -> kids_der kids es -> len (concat es) < 2 ^ 64 ->
          forall f s rest, src_ok s -> (kids_depth kids <= f)%nat -> visible s = concat (map ber_bytes kids) ++ [0; 0] ++ rest ->
          reencode_loop f (enter None s) = Some (concat es, enter None (s_skip (len (concat (map ber_bytes kids))) s))).
    { clear. induction kids as [|k kids IHk]; intros es F Wk Dk Le f s rest H Fu V.
      - destruct es; [|contradiction]. destruct f as [|f]; [cbn in Fu; lia|]. cbn [reencode_loop map concat]. rewrite at_end_none.
        rewrite (peek2_app s 0 0 rest H V). destruct (list_eq_dec _ _ _); [|congruence]. rewrite len_nil, skip_0. reflexivity.
      - destruct es as [|e es]; [contradiction|]. destruct Dk as (Dk1 & Dk2). destruct Wk as (Wk1 & Wk2 & Wk3). inversion F as [|? ? F1 F2]; subst.
        cbn [kids_depth] in Fu. destruct f as [|f]; [lia|]. cbn [reencode_loop map concat] in *. rewrite at_end_none. rewrite <- app_assoc in V.
        rewrite len_app in Le. pose proof (len_nonneg e). pose proof (len_nonneg (concat es)).
        destruct (ber_bytes_2 k Wk1) as (x & y & r & E2). 
        assert (V2 : visible s = x :: y :: r ++ concat (map ber_bytes kids) ++ [0; 0] ++ rest) by (rewrite V, E2; reflexivity).
        rewrite (peek2_app s x y _ H V2). rewrite E2 in Wk2. cbn [firstn] in Wk2. destruct (list_eq_dec _ _ _); [congruence|].
        rewrite (F1 Wk1 e Dk1 ltac:(lia) f (enter None s) _ (enter_none_ok s H) ltac:(lia) V).
        rewrite enter_skip_none. destruct (visible_skip_app s _ _ H V) as (O & W).
        rewrite (IHk es F2 Wk3 Dk2 ltac:(lia) f _ rest O ltac:(lia) W). rewrite skip_skip by apply len_nonneg. rewrite len_app. reflexivity. }
    rewrite (K kids es IH Wk Dk Lc f (s_skip 2 s) rest O ltac:(lia) W).
    destruct (visible_skip_app _ _ _ O W) as (O2 & W2). rewrite (close_none _ rest O2 W2). pose proof (len_nonneg (concat (map ber_bytes kids))). rewrite !skip_skip by lia.
    f_equal. f_equal.
    + destruct De as (le' & De & ->). unfold der_wrap. f_equal. f_equal. apply (der_len_inj (len (concat es))); auto.
      apply der_length_spec. pose proof (len_nonneg (concat es)). unfold len in *. lia.
    + f_equal. rewrite !len_cons, len_app. change (len [0; 0]) with 2. lia.
Qed.

Lemma ber_depth_le : forall b, ber_wf b -> (ber_depth b <= length (ber_bytes b))%nat.
Proof.
  induction b as [tag le c|tag kids IH] using ber_ind2; intros W; cbn [ber_depth ber_bytes length]; [lia|].
  destruct W as (_ & _ & Wk). fold (kids_wf kids) in Wk. fold (kids_depth kids). rewrite app_length. cbn [length].
  assert (K : (kids_depth kids <= 1 + length (concat (map ber_bytes kids)))%nat); [|lia].
  induction kids as [|k kids IHk]; cbn [kids_depth map concat length]; [lia|]. inversion IH as [|? ? I1 I2]; subst. destruct Wk as (W1 & _ & W3).
  specialize (I1 W1). specialize (IHk I2 W3). rewrite app_length. destruct (ber_bytes_2 k W1) as (x & y & r & E). rewrite E in *. cbn [length] in *. lia.
Qed.

(* ------------------------------------------------------------------------- reading to the end of a frame *)

Lemma reads_all_in : forall {A} (f : src -> option (A * src)) v c, reads_all f v c -> reads_in f v c.
Proof. intros A f v c R s H O V. rewrite (R _ O V), enter_skip, Z.sub_diag. reflexivity. Qed.

Lemma enter_bound : forall s l c, src_ok s -> src_ok (enter (Some l) s) -> visible (enter (Some l) s) = c -> l = len c -> l <= s_count s.
Proof.
  intros s l c H O V E. pose proof (len_visible _ O) as L. rewrite V, enter_count in L. lia.
Qed.

Lemma reads_in_bind : forall {A B} (f : src -> option (A * src)) (g : A -> src -> option (B * src)) a v c d,
  reads_back f a c -> reads_in (g a) v d -> reads_in (fun s => bind (f s) g) v (c ++ d).
Proof.
  intros A B f g a v c d F G s H O V. destruct (F _ d O V) as (X & W). rewrite X. cbn [bind].
  pose proof (enter_bound s _ _ H O V eq_refl) as Bd. rewrite len_app in *. pose proof (len_nonneg c). pose proof (len_nonneg d).
  destruct (visible_skip_app _ c d O V) as (O2 & _). rewrite enter_skip in *. replace (len c + len d - len c) with (len d) in * by lia.
  rewrite (G (s_skip (len c) s)); auto; [|apply skip_ok; auto; lia]. rewrite skip_skip by lia. reflexivity.
Qed.

Lemma reads_in_ret : forall {A} (v : A), reads_in (fun s => Some (v, s)) v [].
Proof. intros A v s H O V. rewrite len_nil, skip_0. reflexivity. Qed.

Lemma within_reads_in : forall {A} tag (f : src -> option (A * src)) v c le, reads_in f v c -> ber_len (len c) le -> len c < 2 ^ 64 ->
  reads_back (within tag f) v (tag :: le ++ c).
Proof.
  intros A tag f v c le R B L s rest H V.
  assert (V' : visible s = tag :: le ++ c ++ rest) by (rewrite V; cbn [app]; rewrite <- app_assoc; auto).
  destruct (open_reads tag le c rest s H B L V') as (E & O & W & O' & W'). cbv zeta in *. unfold within. rewrite E. cbn [bind1].
  rewrite (R _ O O' W'). cbn [bind]. rewrite enter_close. cbn [bind1].
  rewrite skip_skip by apply len_nonneg. rewrite <- len_app. split; auto. apply visible_skip_app; auto.
Qed.

Lemma at_end_some : forall l s, ber_at_end (enter (Some l) s) = (l =? 0).
Proof. reflexivity. Qed.

(* ------------------------------------------------------------------------- keys *)

Section Keys.
  Context {P K : Type}.
  Variable sz : Z.
  Hypothesis Hsz : 0 <= sz <= 64.
  Variable alg : list Z.
  Hypothesis Halg : plain_oid alg.
  Variable params : codec P.
  Variable key_enc : K -> list Z.
  Variable key_dec : bool -> Z -> src -> option (K * src).

  Definition seen (p : P) : option P := match c_enc params p with [] => None | _ => Some p end.
  Definition present (p : option P) : bool := match p with Some _ => true | None => false end.
  Definition params_ok (p : P) : Prop := c_enc params p <> [] -> reads_in (c_dec params) p (c_enc params p).

  Lemma algorithm_within : forall s, algorithm_dec sz alg params s =
    within SEQUENCE (fun s => bind (oid_decode_check sz alg s) (fun _ s =>
      if ber_at_end s then Some (None, s) else bind (c_dec params s) (fun p s => Some (Some p, s)))) s.
  Proof.
    intros s. unfold algorithm_dec, within. destruct (ber_open SEQUENCE s) as [s1|]; auto. cbn [bind1].
    destruct (oid_decode_check sz alg s1) as [(u & s2)|]; auto.
  Qed.

  Lemma oid_encode_len : len (oid_encode alg) < 2 ^ 64 -> len (oid_body alg) <= len (oid_encode alg).
  Proof. intros _. rewrite oid_encode_is by auto. apply (len_wrap_ge OBJECT_IDENTIFIER). Qed.

  Lemma oid_check_reads : len (oid_encode alg) < 2 ^ sz -> reads_back (oid_decode_check sz alg) tt (oid_encode alg).
  Proof.
    intros L s rest H V. assert (P64 : 2 ^ sz <= 2 ^ 64) by (apply Z.pow_le_mono_r; lia). pose proof (oid_encode_len ltac:(lia)) as Lb.
    rewrite oid_encode_is in * by auto. destruct (der_string_is OBJECT_IDENTIFIER (oid_body alg)) as (_ & le & B & E); [lia|].
    rewrite E in *. destruct (oid_reads sz alg le Hsz Halg B ltac:(lia) s rest H V) as (X & W). unfold oid_decode_check. rewrite X.
    destruct (list_eq_dec Z.eq_dec alg alg); [auto|congruence].
  Qed.

  Lemma algorithm_reads : forall p, params_ok p -> len (algorithm_enc alg params p) < 2 ^ sz ->
    reads_back (algorithm_dec sz alg params) (seen p) (algorithm_enc alg params p).
  Proof.
    intros p Hp L. assert (P64 : 2 ^ sz <= 2 ^ 64) by (apply Z.pow_le_mono_r; lia). unfold algorithm_enc in *.
    pose proof (len_wrap_ge SEQUENCE (oid_encode alg ++ c_enc params p)) as G.
    destruct (len_wrap SEQUENCE (oid_encode alg ++ c_enc params p)) as (le & B & E); [lia|]. rewrite E.
    apply (reads_ext _ _ _ _ (fun s => eq_sym (algorithm_within s))). apply within_reads_in; auto; [|lia].
    pose proof (len_app (oid_encode alg) (c_enc params p)) as La. pose proof (len_nonneg (oid_encode alg)). pose proof (len_nonneg (c_enc params p)).
    apply (reads_in_bind _ _ tt). { apply oid_check_reads. lia. }
    intros s H' O V. rewrite at_end_some. unfold seen. destruct (c_enc params p) as [|x r] eqn:Ec.
    - rewrite len_nil, skip_0. reflexivity.
    - rewrite len_cons in *. pose proof (len_nonneg r). destruct (Z.eqb_spec (1 + len r) 0); [lia|].
      unfold params_ok in Hp. rewrite Ec in Hp. specialize (Hp ltac:(congruence)). pose proof (Hp s H') as X. rewrite len_cons in X. rewrite X; auto.
  Qed.

  Lemma reader_algorithm : reader (c_dec params) -> reader (algorithm_dec sz alg params).
  Proof.
    intros R. apply (reader_ext _ _ (fun s => eq_sym (algorithm_within s))). apply reader_within. apply reader_bind; [apply reader_oid_check|].
    intros _ s v s' H E. destruct (ber_at_end s). { revert E. apply (reader_ret None s v s' H). }
    revert E. apply (reader_bind (c_dec params) (fun p s => Some (Some p, s)) R (fun p => reader_ret (Some p)) s v s' H).
  Qed.

  Lemma x509_within : forall s, x509_dec sz alg params key_dec s =
    within SEQUENCE (fun s => bind (algorithm_dec sz alg params s) (fun p s =>
      bind (within BIT_STRING (fun s => bind (s_get s) (fun b s => if b =? 0 then key_dec (present p) (ber_remaining s) s else None)) s) (fun k s => Some ((p, k), s)))) s.
  Proof.
    intros s. unfold x509_dec, within. destruct (ber_open SEQUENCE s) as [s1|]; auto. cbn [bind1].
    destruct (algorithm_dec sz alg params s1) as [(p & s2)|]; auto. cbn [bind]. destruct (ber_open BIT_STRING s2) as [s3|]; auto. cbn [bind1].
    destruct (s_get s3) as [(b & s4)|]; auto. cbn [bind]. destruct (b =? 0); auto. fold (present p).
    destruct (key_dec (present p) (ber_remaining s4) s4) as [(k & s5)|]; auto. cbn [bind]. destruct (ber_close s5) as [s6|]; auto.
  Qed.

  Lemma bits_len : forall k, len (der_wrap BIT_STRING (0 :: key_enc k)) < 2 ^ 64 ->
    exists le, ber_len (len (0 :: key_enc k)) le /\ der_wrap BIT_STRING (0 :: key_enc k) = BIT_STRING :: le ++ 0 :: key_enc k.
  Proof. intros k L. apply len_wrap. pose proof (len_wrap_ge BIT_STRING (0 :: key_enc k)). lia. Qed.

  Lemma x509_reads : forall p k, params_ok p -> reads_in (key_dec (present (seen p)) (len (key_enc k))) k (key_enc k) ->
    len (x509_enc alg params key_enc p k) < 2 ^ sz ->
    reads_back (x509_dec sz alg params key_dec) (seen p, k) (x509_enc alg params key_enc p k).
  Proof.
    intros p k Hp Hk L. assert (P64 : 2 ^ sz <= 2 ^ 64) by (apply Z.pow_le_mono_r; lia). unfold x509_enc in *.
    set (A := algorithm_enc alg params p) in *. set (B := der_wrap BIT_STRING (0 :: key_enc k)) in *.
    pose proof (len_wrap_ge SEQUENCE (A ++ B)) as G. pose proof (len_app A B) as La. pose proof (len_nonneg A). pose proof (len_nonneg B).
    destruct (len_wrap SEQUENCE (A ++ B)) as (le & Ble & E); [lia|]. rewrite E.
    apply (reads_ext _ _ _ _ (fun s => eq_sym (x509_within s))). apply within_reads_in; auto; [|lia].
    apply (reads_in_bind _ _ (seen p)). { apply algorithm_reads; auto. fold A. lia. }
    destruct (bits_len k) as (lb & Blb & Eb); [fold B; lia|]. fold B in Eb. rewrite <- (app_nil_r B).
    apply (reads_in_bind _ _ k); [|apply reads_in_ret]. rewrite Eb. apply within_reads_in; auto.
    2:{ pose proof (len_wrap_ge BIT_STRING (0 :: key_enc k)) as Gb. fold B in Gb. lia. }
    change (0 :: key_enc k) with ([0] ++ key_enc k). apply (reads_in_bind _ _ 0). { apply reads_get. }
    intros s H' O V. change (0 =? 0) with true. cbv iota. cbn [ber_remaining s_frames enter]. apply Hk; auto.
  Qed.

  Lemma x509_prefix : forall p k, reader (c_dec params) -> (forall pr n, reader (key_dec pr n)) ->
    len (x509_enc alg params key_enc p k) < 2 ^ 64 ->
    refuses_prefixes (x509_dec sz alg params key_dec) (x509_enc alg params key_enc p k).
  Proof.
    intros p k Rp Rk L. unfold x509_enc in *. set (c := algorithm_enc alg params p ++ der_wrap BIT_STRING (0 :: key_enc k)) in *.
    pose proof (len_wrap_ge SEQUENCE c). destruct (len_wrap SEQUENCE c) as (le & B & E); [lia|]. rewrite E.
    apply (refuses_ext _ _ _ (fun s => eq_sym (x509_within s))). apply within_prefix; auto; [|lia].
    apply reader_bind; [apply reader_algorithm; auto|]. intros q. apply reader_bind; [|intros; apply reader_ret].
    apply reader_within. apply reader_bind; [apply reader_get|]. intros b s v s' Hs X. destruct (b =? 0); [|discriminate].
    revert X. apply Rk. auto.
  Qed.

  Definition pkcs8_key (p : option P) : src -> option (K * src) :=
    within OCTET_STRING (fun s1 => key_dec (present p) (ber_remaining (mkSrc (s_in s1) (tl (s_frames s1)))) s1).
  Definition attributes_dec (s : src) : option (list Z * src) := if ber_at_end s then Some ([], s) else der_reencode (2 * length (s_in s) + 2) s.

  Lemma pkcs8_within : forall s, pkcs8_dec sz alg params key_dec s =
    within SEQUENCE (fun s => bind (ber_unsigned sz 4 INTEGER 0 0 s) (fun _ s => bind (algorithm_dec sz alg params s) (fun p s =>
      bind (pkcs8_key p s) (fun k s => bind (attributes_dec s) (fun a s => Some ((p, k, a), s)))))) s.
  Proof.
    intros s. unfold pkcs8_dec, within, pkcs8_key, within, attributes_dec. destruct (ber_open SEQUENCE s) as [s1|]; auto. cbn [bind1].
    destruct (ber_unsigned sz 4 INTEGER 0 0 s1) as [(u & s2)|]; auto. cbn [bind].
    destruct (algorithm_dec sz alg params s2) as [(p & s3)|]; auto. cbn [bind]. destruct (ber_open OCTET_STRING s3) as [s4|]; auto. cbn [bind1]. fold (present p).
    destruct (key_dec (present p) _ s4) as [(k & s5)|]; auto. cbn [bind]. destruct (ber_close s5) as [s6|]; auto. cbn [bind1 bind].
    destruct (if ber_at_end s6 then Some ([], s6) else der_reencode (2 * length (s_in s6) + 2) s6) as [(a & s7)|]; auto.
  Qed.

  Lemma version_reads : reads_back (ber_unsigned sz 4 INTEGER 0 0) 0 (der_unsigned 4 INTEGER 0) \/ sz = 0.
  Proof.
    destruct (Z.eq_dec sz 0) as [|N]; [auto|left]. change (der_unsigned 4 INTEGER 0) with (INTEGER :: [1] ++ [0]). change 0 with (be_val [0]) at 2.
    apply unsigned_reads; auto.
    - repeat constructor; unfold byte; lia.
    - left. split; auto. change (len [0]) with 1. lia.
    - change (len [0]) with (2 ^ 0). apply Z.pow_lt_mono_r; lia.
    - discriminate.
    - change (be_val [0]) with 0. lia.
    - change (be_val [0]) with 0. lia.
  Qed.

  Lemma pkcs8_reads : forall p k a, params_ok p -> attributes_ok a ->
    reads_in (key_dec (present (seen p)) (len (key_enc k) + len a)) k (key_enc k) ->
    len (pkcs8_enc alg params key_enc p k a) < 2 ^ sz ->
    reads_back (pkcs8_dec sz alg params key_dec) (seen p, k, a) (pkcs8_enc alg params key_enc p k a).
  Proof.
    intros p k a Hp Ha Hk L. assert (P64 : 2 ^ sz <= 2 ^ 64) by (apply Z.pow_le_mono_r; lia). unfold pkcs8_enc in *.
    set (v0 := der_unsigned 4 INTEGER 0) in *. set (A := algorithm_enc alg params p) in *. set (B := der_wrap OCTET_STRING (key_enc k)) in *.
    pose proof (len_wrap_ge SEQUENCE (v0 ++ A ++ B ++ a)) as G. pose proof (len_app v0 (A ++ B ++ a)) as L1. pose proof (len_app A (B ++ a)) as L2. pose proof (len_app B a) as L3.
    pose proof (len_nonneg v0). pose proof (len_nonneg A). pose proof (len_nonneg B). pose proof (len_nonneg a).
    destruct (len_wrap SEQUENCE (v0 ++ A ++ B ++ a)) as (le & Ble & E); [lia|]. rewrite E.
    apply (reads_ext _ _ _ _ (fun s => eq_sym (pkcs8_within s))). apply within_reads_in; auto; [|lia].
    apply (reads_in_bind _ _ 0).
    { destruct version_reads as [V0|Z0]; auto. exfalso. assert (len v0 = 3) by reflexivity. rewrite Z0 in *. change (2 ^ 0) with 1 in *. lia. }
    apply (reads_in_bind _ _ (seen p)). { apply algorithm_reads; auto. fold A. lia. }
    (* the private key: its decoder also sees the outer frame *)
    intros s H' O V. pose proof (enter_bound s _ _ H' O V eq_refl) as Bd.
    assert (Hl : exists lb, ber_len (len (key_enc k)) lb /\ B = OCTET_STRING :: lb ++ key_enc k).
    { apply len_wrap. pose proof (len_wrap_ge OCTET_STRING (key_enc k)) as Gb. fold B in Gb. lia. }
    destruct Hl as (lb & Blb & Eb). 
    assert (V' : visible (enter (Some (len (B ++ a))) s) = OCTET_STRING :: lb ++ key_enc k ++ a) by (rewrite V, Eb; cbn [app]; rewrite <- app_assoc; reflexivity).
    assert (Lk : len (key_enc k) < 2 ^ 64). { pose proof (len_wrap_ge OCTET_STRING (key_enc k)) as Gb. fold B in Gb. lia. }
    destruct (open_reads OCTET_STRING lb (key_enc k) a _ O Blb Lk V') as (Op & O2 & W2 & O3 & W3). cbv zeta in *.
    unfold pkcs8_key, within. rewrite Op. cbn [bind1]. cbn [s_frames enter tl ber_remaining s_in]. rewrite enter_skip in *. cbn [s_frames enter ber_remaining].
    assert (LB : len B = len (OCTET_STRING :: lb) + len (key_enc k)) by (rewrite Eb; change (OCTET_STRING :: lb ++ key_enc k) with ((OCTET_STRING :: lb) ++ key_enc k); apply len_app).
    replace (len (B ++ a) - len (OCTET_STRING :: lb)) with (len (key_enc k) + len a) in * by lia.
    rewrite (Hk _ O2 O3 W3). cbn [bind]. rewrite enter_close. cbn [bind1 bind]. rewrite enter_skip.
    replace (len (key_enc k) + len a - len (key_enc k)) with (len a) by lia.
    pose proof (len_nonneg (OCTET_STRING :: lb)). pose proof (len_nonneg (key_enc k)). rewrite skip_skip by lia. rewrite <- LB.
    destruct (visible_skip_app _ B a O V) as (O4 & W4). rewrite enter_skip in O4, W4. replace (len (B ++ a) - len B) with (len a) in * by lia.
    unfold attributes_dec. rewrite at_end_some. assert (Es : s_skip (len (B ++ a)) s = s_skip (len a) (s_skip (len B) s)) by (rewrite skip_skip by lia; f_equal; lia).
    destruct Ha as [->|(tag & c & Bt & Bc & Da)].
    - rewrite len_nil. change (0 =? 0) with true. cbv iota. cbn [bind]. rewrite app_nil_r. reflexivity.
    - assert (0 < len a) by (destruct Da as (le' & _ & ->); rewrite len_cons; pose proof (len_nonneg (le' ++ c)); lia).
      destruct (Z.eqb_spec (len a) 0); [lia|]. destruct Da as (le' & Dl & Ea).
      assert (Lc : 0 <= len c < 2 ^ 64). { assert (La : len a < 2 ^ 64) by lia. rewrite Ea, len_cons, len_app in La. pose proof (len_nonneg le'). pose proof (len_nonneg c). lia. }
      assert (Wf : ber_wf (Definite tag le' c)). { split; auto. split; [apply der_len_ber; auto|]. split; auto. lia. }
      assert (Dr : ber_der (Definite tag le' c) a) by (exists le'; auto).
      assert (Vb : visible (enter (Some (len a)) (s_skip (len B) s)) = ber_bytes (Definite tag le' c) ++ []) by (rewrite app_nil_r, W4; exact Ea).
      rewrite (reencode_reads _ Wf a Dr ltac:(lia) (2 * length (s_in (enter (Some (len a)) (s_skip (len B) s))) + 2) _ [] O4 ltac:(cbn [ber_depth]; lia) Vb). cbn [bind ber_bytes].
      rewrite <- Ea, enter_skip, Z.sub_diag, <- Es. reflexivity.
  Qed.

  Lemma reader_reencode : forall n, reader (der_reencode n) /\ (forall s v s', src_ok s -> reencode_loop n (enter None s) = Some (v, s') -> exists k, 0 <= k <= s_count s /\ s' = s_skip k (enter None s)).
  Proof.
    induction n as [|n [IH1 IH2]].
    - split; intros s v s' H E; discriminate.
    - split.
      + intros s v s' H E. cbn [der_reencode] in E. destruct (s_peek s) as [tag|]; [|discriminate].
        assert (R : reader (fun s => match s_frames s with Some l :: _ => Some (s_getn l s) | _ => reencode_loop n s end) -> reader (within tag (fun s => match s_frames s with Some l :: _ => Some (s_getn l s) | _ => reencode_loop n s end))) by apply reader_within.
        (* the frame just opened is definite or indefinite *)
        assert (X : exists w, within tag (fun s => match s_frames s with Some l :: _ => Some (s_getn l s) | [] => None | _ => reencode_loop n s end) s = Some (w, s')).
        { unfold within. destruct (ber_open tag s) as [s1|] eqn:Op; [|discriminate]. cbn [bind1].
          assert (s_frames s1 <> []). { unfold ber_open in Op. destruct (s_get s) as [(b & t1)|]; [|discriminate]. destruct (b =? tag); [|discriminate]. destruct (ber_length_lw t1); try discriminate. destruct (_ && _); [discriminate|]. injection Op as <-. discriminate. }
          destruct (s_frames s1) as [|[l|] fr] eqn:Fr; [congruence| |].
          - destruct (s_getn l s1) as (c & s2). cbn [bind]. destruct (ber_close s2); [|discriminate]. cbn [bind1]. injection E as _ <-. eauto.
          - destruct (reencode_loop n s1) as [(c & s2)|]; [|discriminate]. cbn [bind]. destruct (ber_close s2); [|discriminate]. cbn [bind1]. injection E as _ <-. eauto. }
        destruct X as (w & X). revert X. apply reader_within; auto. clear - IH2. intros s v s' H E.
        destruct (s_frames s) as [|[l|] fr] eqn:Fr; [discriminate| |].
        * unfold s_getn in E. injection E as _ <-. exists (Z.min l (s_count s)). pose proof (count_bounds s H). split; auto.
          destruct H as [H _]. rewrite Fr in H. inversion H; subst. lia.
        * assert (Es : s = enter None (mkSrc (s_in s) fr)) by (destruct s as [i f0]; cbn in *; subst; reflexivity).
          assert (H2 : src_ok (mkSrc (s_in s) fr)). { destruct H as [A B]. rewrite Fr in A. inversion A; subst. split; auto. }
          rewrite Es in E. destruct (IH2 _ _ _ H2 E) as (k & Kb & ->). exists k. split; [|rewrite Es at 2; auto].
          rewrite Es, enter_none_count. auto.
      + intros s v s' H E. cbn [reencode_loop] in E. destruct (ber_at_end (enter None s)).
        { injection E as _ <-. exists 0. rewrite skip_0. pose proof (count_bounds s H). split; auto. lia. }
        destruct (der_reencode n (enter None s)) as [(a & s1)|] eqn:D; [|discriminate].
        destruct (IH1 _ _ _ (enter_none_ok s H) D) as (k & Kb & ->). rewrite enter_none_count in Kb. rewrite enter_skip_none in E.
        destruct (reencode_loop n (enter None (s_skip k s))) as [(b & s2)|] eqn:Lp; [|discriminate]. injection E as _ <-.
        destruct (IH2 _ _ _ (skip_ok s k H Kb) Lp) as (m & Mb & ->). rewrite skip_count in Mb by auto. exists (k + m). split; [lia|].
        rewrite <- enter_skip_none, skip_skip by lia. reflexivity.
  Qed.

  Lemma pkcs8_prefix : forall p k a, reader (c_dec params) -> (forall pr n, reader (key_dec pr n)) ->
    len (pkcs8_enc alg params key_enc p k a) < 2 ^ 64 ->
    refuses_prefixes (pkcs8_dec sz alg params key_dec) (pkcs8_enc alg params key_enc p k a).
  Proof.
    intros p k a Rp Rk L. unfold pkcs8_enc in *. match type of L with len (der_wrap SEQUENCE ?x) < _ => set (c := x) in * end.
    pose proof (len_wrap_ge SEQUENCE c). destruct (len_wrap SEQUENCE c) as (le & B & E); [lia|]. rewrite E.
    apply (refuses_ext _ _ _ (fun s => eq_sym (pkcs8_within s))). apply within_prefix; auto; [|lia].
    apply reader_bind; [apply reader_unsigned|]. intros _. apply reader_bind; [apply reader_algorithm; auto|]. intros q. apply reader_bind.
    - apply reader_within. intros s v s' Hs X. exact (Rk _ _ s v s' Hs X).
    - intros k'. apply reader_bind; [|intros; apply reader_ret]. intros s v s' Hs X. unfold attributes_dec in X. destruct (ber_at_end s).
      + exact (reader_ret [] s v s' Hs X).
      + exact (proj1 (reader_reencode _) s v s' Hs X).
  Qed.
End Keys.

Definition fails_on {A} (f : src -> option (A * src)) (c : list Z) : Prop := forall s rest, src_ok s -> visible s = c ++ rest -> f s = None.

Lemma within_fails : forall {A} tag (f : src -> option (A * src)) c le, ber_len (len c) le -> len c < 2 ^ 64 -> fails_on f c -> fails_on (within tag f) (tag :: le ++ c).
Proof.
  intros A tag f c le B L F s rest H V.
  assert (V' : visible s = tag :: le ++ c ++ rest) by (rewrite V; cbn [app]; rewrite <- app_assoc; auto).
  destruct (open_reads tag le c rest s H B L V') as (E & O & W & O' & W'). cbv zeta in *. unfold within. rewrite E. cbn [bind1].
  rewrite (F _ [] O'); auto. rewrite app_nil_r. auto.
Qed.

Lemma other_algorithm : forall {P} sz alg alg' (params : codec P) (params' : codec P) p, 0 <= sz <= 64 -> plain_oid alg' -> alg' <> alg ->
  len (algorithm_enc alg' params' p) < 2 ^ sz -> fails_on (algorithm_dec sz alg params) (algorithm_enc alg' params' p).
Proof.
  intros P sz alg alg' params params' p Hs Po N L s rest H V. assert (P64 : 2 ^ sz <= 2 ^ 64) by (apply Z.pow_le_mono_r; lia). unfold algorithm_enc in *.
  set (c := oid_encode alg' ++ c_enc params' p) in *. pose proof (len_wrap_ge SEQUENCE c) as G. destruct (len_wrap SEQUENCE c) as (le & B & E); [lia|].
  rewrite algorithm_within. rewrite E in V. refine (within_fails SEQUENCE _ c le B ltac:(lia) _ s rest H V).
  clear s rest H V. intros s rest H V. unfold c in V. rewrite <- app_assoc in V.
  assert (Lo : len (oid_encode alg') <= len c) by (unfold c; rewrite len_app; pose proof (len_nonneg (c_enc params' p)); lia).
  rewrite oid_encode_is in * by auto. pose proof (len_wrap_ge OBJECT_IDENTIFIER (oid_body alg')) as Lb. rewrite wrap_string in Lb.
  destruct (der_string_is OBJECT_IDENTIFIER (oid_body alg')) as (_ & lo & Bo & Eo); [lia|]. rewrite Eo in V.
  destruct (oid_reads sz alg' lo Hs Po Bo ltac:(lia) s _ H V) as (X & _). unfold oid_decode_check. rewrite X. destruct (list_eq_dec Z.eq_dec alg alg'); [congruence|reflexivity].
Qed.

Lemma other_x509 : forall {P K} sz alg alg' (params params' : codec P) (key_enc : K -> list Z) (key_dec : bool -> Z -> src -> option (K * src)) p k, 0 <= sz <= 64 -> plain_oid alg' -> alg' <> alg ->
  len (x509_enc alg' params' key_enc p k) < 2 ^ sz -> fails_on (x509_dec sz alg params key_dec) (x509_enc alg' params' key_enc p k).
Proof.
  intros P K sz alg alg' params params' key_enc key_dec p k Hs Po N L s rest H V. assert (P64 : 2 ^ sz <= 2 ^ 64) by (apply Z.pow_le_mono_r; lia). unfold x509_enc in *.
  set (A := algorithm_enc alg' params' p) in *. set (B := der_wrap BIT_STRING (0 :: key_enc k)) in *.
  pose proof (len_wrap_ge SEQUENCE (A ++ B)) as G. destruct (len_wrap SEQUENCE (A ++ B)) as (le & Bl & E); [lia|]. rewrite E in V.
  rewrite x509_within. refine (within_fails SEQUENCE _ (A ++ B) le Bl ltac:(lia) _ s rest H V). clear s rest H V. intros s rest H V.
  rewrite <- app_assoc in V. pose proof (len_app A B). pose proof (len_nonneg B).
  rewrite (other_algorithm sz alg alg' params params' p Hs Po N ltac:(fold A; lia) s _ H V). reflexivity.
Qed.

Lemma other_pkcs8 : forall {P K} sz alg alg' (params params' : codec P) (key_enc : K -> list Z) (key_dec : bool -> Z -> src -> option (K * src)) p k a, 1 <= sz <= 64 -> plain_oid alg' -> alg' <> alg ->
  len (pkcs8_enc alg' params' key_enc p k a) < 2 ^ sz -> fails_on (pkcs8_dec sz alg params key_dec) (pkcs8_enc alg' params' key_enc p k a).
Proof.
  intros P K sz alg alg' params params' key_enc key_dec p k a Hs Po N L s rest H V. assert (P64 : 2 ^ sz <= 2 ^ 64) by (apply Z.pow_le_mono_r; lia). unfold pkcs8_enc in *.
  set (v0 := der_unsigned 4 INTEGER 0) in *. set (A := algorithm_enc alg' params' p) in *. set (B := der_wrap OCTET_STRING (key_enc k) ++ a) in *.
  pose proof (len_wrap_ge SEQUENCE (v0 ++ A ++ B)) as G. destruct (len_wrap SEQUENCE (v0 ++ A ++ B)) as (le & Bl & E); [lia|]. rewrite E in V.
  rewrite pkcs8_within. refine (within_fails SEQUENCE _ (v0 ++ A ++ B) le Bl ltac:(lia) _ s rest H V). clear s rest H V. intros s rest H V.
  rewrite <- !app_assoc in V. pose proof (len_app v0 (A ++ B)). pose proof (len_app A B). pose proof (len_nonneg B). pose proof (len_nonneg v0).
  destruct (version_reads sz) as [R|]; [lia| |lia]. destruct (R s _ H V) as (X & W). rewrite X. cbn [bind].
  destruct (visible_skip_app s _ _ H V) as (O & _).
  fold v0 in X, W |- *. rewrite (other_algorithm sz alg alg' params params' p ltac:(lia) Po N ltac:(fold A; lia) _ _ O W). reflexivity.
Qed.
