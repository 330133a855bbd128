(** InflateBody: literals and matches. *)
From Coq Require Import ZArith List Bool Lia Arith.
From Verif Require Import Base BitioModel BitioSpec BitioProofs BitioStream HuffmanModel HuffmanSpec
  HuffmanCode HuffmanProofs WindowModel WindowSpec WindowProofs InflateModel InflateSpec InflateBits InflateHeader.
Import ListNotations.
Open Scope nat_scope.

(** * Tables *)
Lemma length_code_at : forall k, 257 <= k <= 285 ->
  length_code k = Some (nth (k - 257) length_starts 0, nth (k - 257) length_extra 0)
  /\ nth (k - 257) length_extra 0 <= 5
  /\ nth (k - 257) length_starts 0 + 2 ^ nth (k - 257) length_extra 0 <= 259.
Proof.
  intros k H. unfold length_code. remember (k - 257) as m eqn:E.
  assert (M : m < 29) by lia. clear H E.
  do 29 (destruct m as [|m]; [split; [reflexivity|cbn; lia]|]). lia.
Qed.

Lemma length_code_none : forall k, 285 < k -> length_code k = None.
Proof. intros k H. unfold length_code. apply nth_error_None. cbn [length]. lia. Qed.

Lemma distance_code_at : forall j, j < 30 ->
  distance_code j = Some (nth j distance_starts 0%Z, nth j distance_extra 0)
  /\ nth j distance_extra 0 <= 13 /\ (1 <= nth j distance_starts 0)%Z.
Proof. intros j H. do 30 (destruct j as [|j]; [split; [reflexivity|cbn; lia]|]). lia. Qed.

Lemma distance_code_none : forall j, 30 <= j -> distance_code j = None.
Proof. intros j H. apply nth_error_None. cbn [length]. lia. Qed.

Lemma some_pair : forall {A B} (a c : A) (b d : B), Some (a, b) = Some (c, d) -> c = a /\ d = b.
Proof. intros A B a c b d H. injection H as <- <-. auto. Qed.

(** * What may come next *)
Section Rest.
Variables (b : bool) (W : nat) (lits dists : list nat).

Definition rest_bits (len j : nat) (h : list Z) (s : list bool) (h2 : list Z) (s2 : list bool) : Prop :=
  exists dstart dextra de s1, distance_code j = Some (dstart, dextra) /\ field dextra de s s1
  /\ Z.to_nat dstart + de <= length h /\ Z.to_nat dstart + de <= W
  /\ symbols b W lits dists (lz_copy len (Z.to_nat dstart + de) h) s1 h2 s2.
Definition rest_dist (len : nat) (h : list Z) (s : list bool) (h2 : list Z) (s2 : list bool) : Prop :=
  exists j s1, reads b dists s j s1 /\ rest_bits len j h s1 h2 s2.
Definition rest_len (k : nat) (h : list Z) (s : list bool) (h2 : list Z) (s2 : list bool) : Prop :=
  exists lstart lextra le s1, length_code k = Some (lstart, lextra) /\ field lextra le s s1
  /\ rest_dist (lstart + le) h s1 h2 s2.

Lemma symbols_step : forall h s h2 s2,
  symbols b W lits dists h s h2 s2 <->
  exists k s1, reads b lits s k s1 /\
    (k = 256 /\ h2 = h /\ s2 = s1 \/ k < 256 /\ symbols b W lits dists (h ++ [Z.of_nat k]) s1 h2 s2
     \/ 256 < k /\ rest_len k h s1 h2 s2).
Proof.
  intros h s h2 s2. split.
  - intros H. inversion H; subst.
    + exists 256, s2. auto.
    + exists v, s'. auto.
    + exists k, s1. split; auto. right. right. split; auto. exists lstart, lextra, le, s3. split; auto. split; auto.
      exists j, s4. split; auto. exists dstart, dextra, de, s5. auto.
  - intros (k & s1 & R & [(-> & -> & ->)|[[L S]|[G S]]]).
    + constructor. auto.
    + eapply sym_literal; eauto.
    + destruct S as (ls & lx & le & s3 & C & F & j & s4 & R2 & ds & dx & de & s5 & C2 & F2 & L1 & L2 & S).
      eapply sym_match; eauto.
Qed.

Definition cont (nx : next) (k j : nat) (h : list Z) (s : list bool) (h2 : list Z) (s2 : list bool) : Prop :=
  usable b lits /\ (usable b dists \/ dists = [0]) /\
  match nx with
  | LITERAL => symbols b W lits dists h s h2 s2
  | LENGTH_BITS => rest_len k h s h2 s2
  | DISTANCE => rest_dist k h s h2 s2
  | DISTANCE_BITS => rest_bits k j h s h2 s2
  end.
End Rest.

(** * The state in the middle of a block *)
Definition fixed_ok (s : inflator) : Prop :=
  (forall d, f_flit s = Some d -> decoder_of fixed_lit d)
  /\ (forall d, f_fdist s = Some d -> decoder_of fixed_dist d).

Record in_body (W : nat) (lits dists : list nat) (s : inflator) (h : list Z) : Prop :=
  { b_rd : rok22 (f_rd s);
    b_win : rel W (f_win s) h;
    b_fix : fixed_ok s;
    b_lit : exists d, literal_decoder s = Some d /\ decoder_of lits d;
    b_ul : usable false lits;
    b_ml : max_bits lits <= 15;
    b_dist : (exists d, distance_decoder s = Some d /\ decoder_of dists d /\ usable false dists /\ max_bits dists <= 15)
             \/ (dists = [0] /\ length lits = 257 /\ f_next s = LITERAL);
    b_type : f_type s = 1 -> lits = fixed_lit /\ dists = fixed_dist;
    b_next : match f_next s with
             | LITERAL => True
             | LENGTH_BITS => 257 <= f_literal s <= 285
             | _ => f_literal s <= 258
             end }.

Definition same_frame (s s' : inflator) : Prop :=
  f_state s' = f_state s /\ f_eof s' = f_eof s /\ f_type s' = f_type s /\ f_after s' = f_after s.

Definition rank (n : next) : nat :=
  match n with LITERAL => 0 | LENGTH_BITS => 3 | DISTANCE => 2 | DISTANCE_BITS => 1 end.
Definition measure (s : inflator) : nat := 4 * length (rbits (f_rd s)) + rank (f_next s).

Notation conts b W lits dists s := (cont b W lits dists (f_next s) (f_literal s) (f_distance s)).

(** setters *)
Lemma set_lit_facts : forall W lits dists s h d r, in_body W lits dists s h -> decoder_of lits d -> rok22 r ->
  in_body W lits dists (set_rd (set_lit s d) r) h /\ same_frame s (set_rd (set_lit s d) r)
  /\ f_rd (set_rd (set_lit s d) r) = r /\ f_next (set_rd (set_lit s d) r) = f_next s
  /\ f_literal (set_rd (set_lit s d) r) = f_literal s /\ f_distance (set_rd (set_lit s d) r) = f_distance s
  /\ f_win (set_rd (set_lit s d) r) = f_win s.
Proof.
  intros W lits dists s h d r H HD HR. destruct H. unfold set_lit. destruct (Nat.eqb_spec (f_type s) 1) as [T|T].
  - destruct (b_type0 T) as [-> ->].
    split; [|repeat split; reflexivity].
    constructor; cbn [set_rd f_rd f_win f_next f_literal f_type f_flit f_fdist f_lit f_dist]; auto.
    + destruct b_fix0 as [F1 F2]. split; cbn [f_flit f_fdist set_rd]; auto. intros d' E. injection E as <-. auto.
    + unfold literal_decoder. cbn [f_type f_flit f_lit set_rd]. rewrite T, Nat.eqb_refl. eauto.
  - split; [|repeat split; reflexivity].
    constructor; cbn [set_rd f_rd f_win f_next f_literal f_type f_flit f_fdist f_lit f_dist]; auto.
    unfold literal_decoder. cbn [f_type f_flit f_lit set_rd]. rewrite (proj2 (Nat.eqb_neq _ _) T). eauto.
Qed.

Lemma set_dist_facts : forall W lits dists s h d r, in_body W lits dists s h -> decoder_of dists d -> rok22 r ->
  usable false dists -> max_bits dists <= 15 ->
  in_body W lits dists (set_rd (set_dist s d) r) h /\ same_frame s (set_rd (set_dist s d) r)
  /\ f_rd (set_rd (set_dist s d) r) = r /\ f_next (set_rd (set_dist s d) r) = f_next s
  /\ f_literal (set_rd (set_dist s d) r) = f_literal s /\ f_distance (set_rd (set_dist s d) r) = f_distance s
  /\ f_win (set_rd (set_dist s d) r) = f_win s.
Proof.
  intros W lits dists s h d r H HD HR HU HM. destruct H. unfold set_dist. destruct (Nat.eqb_spec (f_type s) 1) as [T|T].
  - destruct (b_type0 T) as [-> ->].
    split; [|repeat split; reflexivity].
    constructor; cbn [set_rd f_rd f_win f_next f_literal f_type f_flit f_fdist f_lit f_dist]; auto.
    + destruct b_fix0 as [F1 F2]. split; cbn [f_flit f_fdist set_rd]; auto. intros d' E. injection E as <-. auto.
    + left. unfold distance_decoder. cbn [f_type f_fdist f_dist set_rd]. rewrite T, Nat.eqb_refl. eauto.
  - split; [|repeat split; reflexivity].
    constructor; cbn [set_rd f_rd f_win f_next f_literal f_type f_flit f_fdist f_lit f_dist]; auto.
    left. unfold distance_decoder. cbn [f_type f_fdist f_dist set_rd]. rewrite (proj2 (Nat.eqb_neq _ _) T). eauto.
Qed.

Lemma set_next_body : forall W lits dists s h nx k j, in_body W lits dists s h ->
  ((exists d, distance_decoder s = Some d /\ decoder_of dists d /\ usable false dists /\ max_bits dists <= 15) \/ nx = LITERAL) ->
  match nx with LITERAL => True | LENGTH_BITS => 257 <= k <= 285 | _ => k <= 258 end ->
  in_body W lits dists (set_next s nx k j) h.
Proof.
  intros W lits dists s h nx k j H HD HN. destruct H. constructor; cbn [set_next f_rd f_win f_next f_literal f_type f_flit f_fdist f_lit f_dist]; auto.
  destruct HD as [HD|HD]; [left; exact HD|]. destruct b_dist0 as [A|(A & B & _)]; [left; exact A|right; auto].
Qed.

Lemma set_win_body : forall W lits dists s h w h', in_body W lits dists s h -> rel W w h' -> in_body W lits dists (set_win s w) h'.
Proof. intros W lits dists s h w h' H R. destruct H. constructor; auto. Qed.

Lemma set_rd_body : forall W lits dists s h r, in_body W lits dists s h -> rok22 r -> in_body W lits dists (set_rd s r) h.
Proof. intros W lits dists s h r H R. destruct H. constructor; auto. Qed.

Lemma len_coded : forall lens i, coded lens i -> i < length lens.
Proof.
  intros lens i H. destruct (Nat.lt_ge_cases i (length lens)); auto. unfold coded in H. rewrite nth_overflow in H by auto. lia.
Qed.

Lemma no_dist_zero : forall b s j s', ~ reads b [0] s j s'.
Proof. intros b s j s' [C _]. unfold coded in C. destruct j as [|[|j]]; cbn in C; lia. Qed.

(** a successful or failed FillBuffer followed by GetBits *)
Lemma fill_get : forall r n, rok22 r -> n <= 15 ->
  if snd (fill_buffer r n)
  then exists r' v, get r n = Fine (r', v) /\ rok22 r' /\ field n v (rbits r) (rbits r')
  else length (rbits r) < n /\ rok22 (fst (fill_buffer r n)) /\ rbits (fst (fill_buffer r n)) = rbits r.
Proof.
  intros r n [HR HC] Hn. destruct (fill_len r n HR ltac:(lia)) as (A & B & C). pose proof (fill_cnt r n).
  destruct (snd (fill_buffer r n)).
  - destruct C as [C1 C2]. destruct (get_spec r n HR ltac:(lia) C2) as (r' & v & G & R & F & CC).
    exists r', v. split; auto. split; auto. split; auto. lia.
  - split; auto. split; auto. split; auto. lia.
Qed.

Lemma body_step_spec : forall W lits dists s h, 257 <= W -> in_body W lits dists s h ->
  match body_step s with
  | Fine (Continue s') => exists h', in_body W lits dists s' h' /\ same_frame s s' /\ measure s' < measure s
      /\ length (rbits (f_rd s')) <= length (rbits (f_rd s))
      /\ (forall t h2 s2, conts false W lits dists s' h' (rbits (f_rd s') ++ t) h2 s2 ->
                          conts false W lits dists s h (rbits (f_rd s) ++ t) h2 s2)
      /\ (forall t h2 s2, conts true W lits dists s h (rbits (f_rd s) ++ t) h2 s2 ->
                          conts true W lits dists s' h' (rbits (f_rd s') ++ t) h2 s2)
  | Fine (Suspend s') => in_body W lits dists s' h /\ same_frame s s' /\ rbits (f_rd s') = rbits (f_rd s)
      /\ f_next s' = f_next s /\ f_literal s' = f_literal s /\ f_distance s' = f_distance s
      /\ (forall h2 s2, ~ conts true W lits dists s h (rbits (f_rd s)) h2 s2)
  | Fine (BlockEnd s') => in_body W lits dists s' h /\ same_frame s s'
      /\ length (rbits (f_rd s')) <= length (rbits (f_rd s))
      /\ (forall t, conts false W lits dists s h (rbits (f_rd s) ++ t) h (rbits (f_rd s') ++ t))
      /\ (forall t h2 s2, conts true W lits dists s h (rbits (f_rd s) ++ t) h2 s2 -> h2 = h /\ s2 = rbits (f_rd s') ++ t)
  | BadBlock => forall t h2 s2, ~ conts true W lits dists s h (rbits (f_rd s) ++ t) h2 s2
  | _ => False
  end.
Proof.
  intros W lits dists s h HW HB. pose proof (b_rd _ _ _ _ _ HB) as R22. unfold body_step.
  destruct (f_next s) eqn:EN.
  - (* LITERAL *)
    destruct (b_lit _ _ _ _ _ HB) as (d & ED & HD). rewrite ED.
    destruct (dsym lits d (f_rd s) (b_ul _ _ _ _ _ HB) HD (proj1 R22)) as (d' & r & res & D & HD' & R & C & S).
    rewrite D. assert (RR : rok22 r) by (split; auto; pose proof (b_ml _ _ _ _ _ HB); destruct R22; lia).
    destruct (set_lit_facts W lits dists s h d' r HB HD' RR) as (B1 & FR & E1 & E2 & E3 & E4 & E5).
    remember (set_rd (set_lit s d') r) as s1 eqn:ES1.
    destruct res as [k|].
    + destruct S as (RD & SL & _ & DET).
      assert (INV : forall t h2 s2, cont true W lits dists LITERAL (f_literal s) (f_distance s) h (rbits (f_rd s) ++ t) h2 s2 ->
        usable true lits /\ (usable true dists \/ dists = [0]) /\
        (k = 256 /\ h2 = h /\ s2 = rbits r ++ t \/ k < 256 /\ symbols true W lits dists (h ++ [Z.of_nat k]) (rbits r ++ t) h2 s2
         \/ 256 < k /\ rest_len true W lits dists k h (rbits r ++ t) h2 s2)).
      { intros t h2 s2 (U1 & U2 & H). split; auto. split; auto. apply symbols_step in H as (k' & s' & RD' & H).
        destruct (DET t k' s' U1 RD') as [-> ->]. exact H. }
      assert (UF : usable false dists \/ dists = [0]).
      { destruct (b_dist _ _ _ _ _ HB) as [(x & _ & _ & U & _)|(U & _)]; auto. }
      assert (BACK : forall t h2 s2, (k = 256 /\ h2 = h /\ s2 = rbits r ++ t \/ k < 256 /\ symbols false W lits dists (h ++ [Z.of_nat k]) (rbits r ++ t) h2 s2
         \/ 256 < k /\ rest_len false W lits dists k h (rbits r ++ t) h2 s2) ->
         cont false W lits dists LITERAL (f_literal s) (f_distance s) h (rbits (f_rd s) ++ t) h2 s2).
      { intros t h2 s2 H. split; [apply (b_ul _ _ _ _ _ HB)|]. split; auto. apply symbols_step.
        exists k, (rbits r ++ t). split; [apply reads_app; auto|exact H]. }
      destruct (Nat.ltb_spec k 256) as [L|G].
      * destruct (output_byte_rel W (f_win s1) h (Z.of_nat k) ltac:(lia) (b_win _ _ _ _ _ B1)) as (w & EW & RW).
        rewrite EW. cbn [of_res bind]. exists (h ++ [Z.of_nat k]).
        split; [eapply set_win_body; eauto|]. split; [exact FR|].
        cbn [set_win f_rd f_next f_literal f_distance measure]. unfold measure. cbn [set_win f_rd f_next]. rewrite E1, E2, E3, E4, EN.
        cbn [rank]. split; [lia|]. split; [lia|]. split.
        { intros t h2 s2 (_ & _ & H). apply BACK. auto. }
        { intros t h2 s2 H. destruct (INV t h2 s2 H) as (U1 & U2 & [(X & _)|[(_ & X)|(X & _)]]); try lia. split; auto. }
      * destruct (Nat.eqb_spec k 256) as [->|N].
        { split; auto. split; auto. rewrite E1. split; [lia|]. split.
          - intros t. apply BACK. auto.
          - intros t h2 s2 H. destruct (INV t h2 s2 H) as (U1 & U2 & [(_ & -> & ->)|[(X & _)|(X & _)]]); try lia. auto. }
        destruct (Nat.ltb_spec 285 k) as [L285|G285].
        { intros t h2 s2 H. destruct (INV t h2 s2 H) as (U1 & U2 & [(X & _)|[(X & _)|(_ & X)]]); try lia.
          destruct X as (ls & lx & le & s' & LC & _). rewrite length_code_none in LC by auto. discriminate. }
        exists h. split.
        { apply set_next_body; auto; [|cbn; lia]. left.
          destruct (b_dist _ _ _ _ _ B1) as [X|(_ & X & _)]; auto.
          pose proof (len_coded lits k (proj1 RD)). lia. }
        split; [exact FR|]. unfold measure. cbn [set_next f_rd f_next f_literal f_distance rank]. rewrite E1, EN. cbn [rank].
        split; [lia|]. split; [lia|]. split.
        { intros t h2 s2 (_ & _ & H). apply BACK. right. right. split; [lia|exact H]. }
        { intros t h2 s2 H. destruct (INV t h2 s2 H) as (U1 & U2 & [(X & _)|[(X & _)|(_ & X)]]); try lia. split; auto. }
    + destruct S as (S1 & S2 & S3). split; auto. split; auto. rewrite E1. split; auto. split; [congruence|]. split; auto. split; auto.
      intros h2 s2 (_ & _ & H). apply symbols_step in H as (k & s' & RD & _). apply (S3 k s' RD).
  - (* LENGTH_BITS *)
    pose proof (b_next _ _ _ _ _ HB) as BN. rewrite EN in BN.
    destruct (length_code_at (f_literal s) BN) as (LC & LX & LM).
    pose proof (fill_get (f_rd s) (nth (f_literal s - 257) length_extra 0) R22 ltac:(lia)) as FG.
    destruct (snd (fill_buffer (f_rd s) (nth (f_literal s - 257) length_extra 0))).
    + destruct FG as (r & v & G & R & F). rewrite G. cbn [bind]. pose proof (field_len _ _ _ _ F) as FL.
      pose proof (proj1 F) as FV.
      exists h. split.
      { apply set_next_body; [apply set_rd_body; auto| |lia]. left.
        destruct (b_dist _ _ _ _ _ HB) as [X|(_ & _ & X)]; [exact X|congruence]. }
      split; [repeat split; reflexivity|]. unfold measure. cbn [set_next set_rd f_rd f_next f_literal f_distance]. rewrite EN. cbn [rank].
      split; [lia|]. split; [lia|]. split.
      * intros t h2 s2 (U1 & U2 & H). split; auto. split; auto.
        exists (nth (f_literal s - 257) length_starts 0), (nth (f_literal s - 257) length_extra 0), v, (rbits r ++ t).
        split; auto. split; [apply field_app; auto|]. rewrite Nat.add_comm. exact H.
      * intros t h2 s2 (U1 & U2 & H). split; auto. split; auto.
        destruct H as (ls & lx & le & s' & LC' & F' & H). rewrite LC in LC'. apply some_pair in LC' as [-> ->].
        destruct (field_det _ _ _ _ _ _ (field_app _ _ _ _ t F) F') as [-> ->]. rewrite Nat.add_comm. exact H.
    + destruct FG as (S1 & S2 & S3). split; [apply set_rd_body; auto|]. split; [repeat split; reflexivity|].
      cbn [set_rd f_rd f_next f_literal f_distance]. split; auto. split; auto. split; auto. split; auto.
      intros h2 s2 (_ & _ & H). destruct H as (ls & lx & le & s' & LC' & F' & H). rewrite LC in LC'. apply some_pair in LC' as [-> ->].
      apply field_len in F'. lia.
  - (* DISTANCE *)
    destruct (b_dist _ _ _ _ _ HB) as [(d & ED & HD & UD & MD)|(_ & _ & X)]; [|congruence]. rewrite ED.
    destruct (dsym dists d (f_rd s) UD HD (proj1 R22)) as (d' & r & res & D & HD' & R & C & S).
    rewrite D. assert (RR : rok22 r) by (split; auto; destruct R22; lia).
    destruct (set_dist_facts W lits dists s h d' r HB HD' RR UD MD) as (B1 & FR & E1 & E2 & E3 & E4 & E5).
    remember (set_rd (set_dist s d') r) as s1 eqn:ES1.
    pose proof (b_next _ _ _ _ _ HB) as BN. rewrite EN in BN.
    destruct res as [j|].
    + destruct S as (RD & SL & _ & DET). exists h. split.
      { apply set_next_body; auto. left. destruct (b_dist _ _ _ _ _ B1) as [X|(_ & _ & X)]; [exact X|congruence]. }
      split; [exact FR|]. unfold measure. cbn [set_next f_rd f_next f_literal f_distance rank]. rewrite E1, EN. cbn [rank].
      split; [lia|]. split; [lia|]. split.
      * intros t h2 s2 (U1 & U2 & H). split; auto. split; auto. exists j, (rbits r ++ t). split; [apply reads_app; auto|exact H].
      * intros t h2 s2 (U1 & U2 & H). split; auto. split; auto. destruct H as (j' & s' & RD' & H).
        destruct U2 as [U2|U2]; [|rewrite U2 in RD'; destruct (no_dist_zero _ _ _ _ RD')].
        destruct (DET t j' s' U2 RD') as [-> ->]. exact H.
    + destruct S as (S1 & S2 & S3). split; auto. split; auto. rewrite E1. split; auto. split; [congruence|]. split; auto. split; auto.
      intros h2 s2 (_ & _ & H). destruct H as (j & s' & RD & _). apply (S3 j s' RD).
  - (* DISTANCE_BITS *)
    destruct (Nat.leb_spec 30 (f_distance s)) as [G30|L30].
    { intros t h2 s2 (_ & _ & H). destruct H as (ds & dx & de & s' & DC & _). rewrite distance_code_none in DC by auto. discriminate. }
    destruct (distance_code_at (f_distance s) L30) as (DC & DX & DM).
    pose proof (b_next _ _ _ _ _ HB) as BN. rewrite EN in BN.
    pose proof (fill_get (f_rd s) (nth (f_distance s) distance_extra 0) R22 ltac:(lia)) as FG.
    destruct (snd (fill_buffer (f_rd s) (nth (f_distance s) distance_extra 0))).
    + destruct FG as (r & v & G & R & F). rewrite G. cbn [bind]. pose proof (field_len _ _ _ _ F) as FL.
      rewrite (Nat.add_comm v). remember (Z.to_nat (nth (f_distance s) distance_starts 0%Z) + v) as dd eqn:EDD.
      assert (D1 : 1 <= dd) by lia.
      pose proof (output_past_rel W (f_literal s) dd (f_win s) h ltac:(lia) (b_win _ _ _ _ _ HB) D1 ltac:(lia)) as OP.
      assert (INV : forall t h2 s2, cont true W lits dists DISTANCE_BITS (f_literal s) (f_distance s) h (rbits (f_rd s) ++ t) h2 s2 ->
        usable true lits /\ (usable true dists \/ dists = [0]) /\ dd <= length h /\ dd <= W
        /\ symbols true W lits dists (lz_copy (f_literal s) dd h) (rbits r ++ t) h2 s2).
      { intros t h2 s2 (U1 & U2 & H). split; auto. split; auto. destruct H as (ds & dx & de & s' & DC' & F' & H).
        rewrite DC in DC'. apply some_pair in DC' as [-> ->]. destruct (field_det _ _ _ _ _ _ (field_app _ _ _ _ t F) F') as [-> ->].
        rewrite <- EDD in H. exact H. }
      destruct (Nat.leb_spec dd (length h)) as [A|A]; [destruct (Nat.leb_spec dd W) as [A2|A2]|]; cbn [andb] in OP.
      * destruct OP as (w & EW & RW). rewrite EW. cbn [of_res bind]. exists (lz_copy (f_literal s) dd h). split.
        { apply set_next_body; [eapply set_win_body; [apply set_rd_body; eauto|exact RW]|auto|exact I]. }
        split; [repeat split; reflexivity|]. unfold measure. cbn [set_next set_win set_rd f_rd f_next f_literal f_distance]. rewrite EN. cbn [rank].
        split; [lia|]. split; [lia|]. split.
        { intros t h2 s2 (U1 & U2 & H). split; auto. split; auto.
          exists (nth (f_distance s) distance_starts 0%Z), (nth (f_distance s) distance_extra 0), v, (rbits r ++ t).
          rewrite <- EDD. split; auto. split; [apply field_app; auto|]. auto. }
        { intros t h2 s2 H. destruct (INV t h2 s2 H) as (U1 & U2 & _ & _ & X). split; auto. }
      * rewrite OP. cbn [of_res bind]. intros t h2 s2 H. destruct (INV t h2 s2 H) as (_ & _ & _ & X & _). lia.
      * rewrite OP. cbn [of_res bind]. intros t h2 s2 H. destruct (INV t h2 s2 H) as (_ & _ & X & _ & _). lia.
    + destruct FG as (S1 & S2 & S3). split; [apply set_rd_body; auto|]. split; [repeat split; reflexivity|].
      cbn [set_rd f_rd f_next f_literal f_distance]. split; auto. split; auto. split; auto. split; auto.
      intros h2 s2 (_ & _ & H). destruct H as (ds & dx & de & s' & DC' & F' & H). rewrite DC in DC'. apply some_pair in DC' as [-> ->].
      apply field_len in F'. lia.
Qed.

Lemma body_run_spec : forall W lits dists, 257 <= W -> forall fuel s h, in_body W lits dists s h -> measure s < fuel ->
  match body_run fuel s with
  | Fine (s', e) => exists h', in_body W lits dists s' h' /\ same_frame s s'
      /\ length (rbits (f_rd s')) <= length (rbits (f_rd s))
      /\ if e then (forall t, conts false W lits dists s h (rbits (f_rd s) ++ t) h' (rbits (f_rd s') ++ t))
                /\ (forall t h2 s2, conts true W lits dists s h (rbits (f_rd s) ++ t) h2 s2 -> h2 = h' /\ s2 = rbits (f_rd s') ++ t)
         else (forall t h2 s2, conts false W lits dists s' h' (rbits (f_rd s') ++ t) h2 s2 ->
                               conts false W lits dists s h (rbits (f_rd s) ++ t) h2 s2)
           /\ (forall t h2 s2, conts true W lits dists s h (rbits (f_rd s) ++ t) h2 s2 ->
                               conts true W lits dists s' h' (rbits (f_rd s') ++ t) h2 s2)
           /\ (forall h2 s2, ~ conts true W lits dists s' h' (rbits (f_rd s')) h2 s2)
  | BadBlock => forall t h2 s2, ~ conts true W lits dists s h (rbits (f_rd s) ++ t) h2 s2
  | _ => False
  end.
Proof.
  intros W lits dists HW. induction fuel as [|fuel IH]; intros s h HB HM; [lia|].
  cbn [body_run]. pose proof (body_step_spec W lits dists s h HW HB) as ST.
  destruct (body_step s) as [[s1|s1|s1]| | |]; cbn [bind]; auto.
  - destruct ST as (h1 & B1 & FR & M1 & L1 & X1 & X2). specialize (IH s1 h1 B1 ltac:(lia)).
    assert (FT : forall s', same_frame s1 s' -> same_frame s s').
    { intros s' (A & B & C & D). destruct FR as (A' & B' & C' & D'). repeat split; congruence. }
    destruct (body_run fuel s1) as [[s' e]| | |]; auto.
    + destruct IH as (h' & B' & FR' & L' & IH). exists h'. split; auto. split; auto. split; [lia|]. destruct e.
      * destruct IH as [I1 I2]. split; auto.
      * destruct IH as (I1 & I2 & I3). split; auto.
    + intros t h2 s2 H. apply (IH t h2 s2). auto.
  - destruct ST as (B1 & FR & EQ & N1 & N2 & N3 & X). exists h. split; auto. split; auto. rewrite EQ, N1, N2, N3. split; auto.
  - destruct ST as (B1 & FR & L1 & X1 & X2). exists h. auto.
Qed.
