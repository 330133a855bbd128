(** InflateBits: reading fields and symbols. *)
From Coq Require Import ZArith List Bool Lia Arith Permutation Sorted.
From Verif Require Import Base BitioModel BitioSpec BitioProofs BitioStream HuffmanModel HuffmanSpec
  HuffmanCode HuffmanTable HuffmanProofs InflateModel InflateSpec.
Import ListNotations.
Open Scope nat_scope.

(** * Fields *)
Lemma fill_loop_cnt : forall rest buf cnt n,
  r_cnt (fst (fill_loop rest buf cnt n)) <= Nat.max cnt (n + 7).
Proof.
  induction rest as [|b rest IH]; intros buf cnt n; cbn [fill_loop]; destruct (Nat.ltb_spec cnt n); cbn [fst r_cnt]; try lia.
  specialize (IH (Z.lor buf (Z.shiftl b (Z.of_nat cnt) mod 2 ^ 64)) (cnt + 8) n). lia.
Qed.

Lemma fill_cnt : forall r n, r_cnt (fst (fill_buffer r n)) <= Nat.max (r_cnt r) (n + 7).
Proof. intros. apply fill_loop_cnt. Qed.

Lemma fill_len : forall r n, rok r -> n <= 32 ->
  rok (fst (fill_buffer r n)) /\ rbits (fst (fill_buffer r n)) = rbits r
  /\ (if snd (fill_buffer r n) then n <= r_cnt (fst (fill_buffer r n)) /\ n <= length (rbits r)
      else length (rbits r) < n).
Proof.
  intros r n HR Hn. pose proof (fill_buffer_spec r n HR Hn) as F.
  destruct (fill_buffer r n) as [r' ok]. cbn [fst snd]. destruct F as (F1 & F2 & F3).
  split; auto. split; auto. rewrite <- F2. unfold rbits. rewrite app_length, lsbs_length.
  destruct ok; [lia|]. destruct F3 as [F3 ->]. cbn. lia.
Qed.

Lemma need_spec : forall r n, rok r -> n <= 32 ->
  match need r n with
  | Fine r' => rok r' /\ rbits r' = rbits r /\ n <= r_cnt r' /\ n <= length (rbits r)
               /\ r_cnt r' <= Nat.max (r_cnt r) (n + 7)
  | UnexpectedEnd => length (rbits r) < n
  | _ => False
  end.
Proof.
  intros r n HR Hn. unfold need. destruct (fill_len r n HR Hn) as (A & B & C). pose proof (fill_cnt r n).
  destruct (snd (fill_buffer r n)); [|exact C]. destruct C. auto.
Qed.

Lemma field_app : forall n v s s' t, field n v s s' -> field n v (s ++ t) (s' ++ t).
Proof. intros n v s s' t [A ->]. split; auto. rewrite app_assoc. reflexivity. Qed.

Lemma pow2_nat : forall n, Z.of_nat (2 ^ n) = (2 ^ Z.of_nat n)%Z.
Proof. intros. rewrite Nat2Z.inj_pow. reflexivity. Qed.

Lemma lsbs_inj : forall n a b, (0 <= a < 2 ^ Z.of_nat n)%Z -> (0 <= b < 2 ^ Z.of_nat n)%Z -> lsbs n a = lsbs n b -> a = b.
Proof.
  intros n a b Ha Hb E. apply (f_equal lsbs_val) in E. rewrite !lsbs_val_lsbs in E.
  rewrite !Z.mod_small in E by auto. exact E.
Qed.

Lemma app_eq_len : forall {A} (a b c d : list A), length a = length c -> a ++ b = c ++ d -> a = c /\ b = d.
Proof.
  induction a as [|x a IH]; intros b [|y c] d L E; cbn in L; try discriminate; [auto|].
  injection E as -> E. injection L as L. destruct (IH b c d L E) as [-> ->]. auto.
Qed.

Lemma field_det : forall n v s s' v2 s2, field n v s s' -> field n v2 s s2 -> v2 = v /\ s2 = s'.
Proof.
  intros n v s s' v2 s2 [A ->] [B E]. apply app_eq_len in E as [E ->]; [|rewrite !lsbs_length; auto].
  split; auto. apply lsbs_inj in E; [lia|rewrite <- pow2_nat; lia|rewrite <- pow2_nat; lia].
Qed.

Lemma field_len : forall n v s s', field n v s s' -> length s = n + length s'.
Proof. intros n v s s' [_ ->]. rewrite app_length, lsbs_length. reflexivity. Qed.

Lemma getz_spec : forall r n, rok r -> n <= 32 -> n <= length (rbits r) ->
  exists r' v, getz r n = Fine (r', v) /\ rok r' /\ (0 <= v < 2 ^ Z.of_nat n)%Z
    /\ rbits r = lsbs n v ++ rbits r' /\ r_cnt r' <= Nat.max (r_cnt r) (n + 7) - n.
Proof.
  intros r n HR Hn HL. unfold getz. destruct (fill_len r n HR Hn) as (A & B & C).
  destruct (snd (fill_buffer r n)) eqn:E; [|lia]. destruct C as [C _].
  destruct (Nat.ltb_spec (r_cnt (fst (fill_buffer r n))) n); [lia|].
  destruct (get_bits_spec r n HR Hn HL) as (r' & G & R & RB). rewrite G.
  assert (FL : length (firstn n (rbits r)) = n) by (rewrite firstn_length; lia).
  exists r', (lsbs_val (firstn n (rbits r))). split; auto. split; auto. split.
  - pose proof (lsbs_val_range (firstn n (rbits r))) as LR. rewrite FL in LR. exact LR.
  - split.
    + pose proof (lsbs_lsbs_val (firstn n (rbits r))) as LL. rewrite FL in LL. rewrite LL, RB. symmetry. apply firstn_skipn.
    + unfold get_bits, peek_bits in G. injection G as <- _. cbn [r_cnt skip_bits]. pose proof (fill_cnt r n). lia.
Qed.

Lemma get_spec : forall r n, rok r -> n <= 32 -> n <= length (rbits r) ->
  exists r' v, get r n = Fine (r', v) /\ rok r' /\ field n v (rbits r) (rbits r')
    /\ r_cnt r' <= Nat.max (r_cnt r) (n + 7) - n.
Proof.
  intros r n HR Hn HL. destruct (getz_spec r n HR Hn HL) as (r' & v & G & R & V & B & C).
  exists r', (Z.to_nat v). unfold get. rewrite G. cbn [bind]. split; auto. split; auto. split; auto. split.
  - apply Nat2Z.inj_lt. rewrite pow2_nat. lia.
  - rewrite Z2Nat.id by lia. exact B.
Qed.

Lemma get_short : forall r n, rok r -> n <= 32 -> length (rbits r) < n -> get r n = Wild.
Proof.
  intros r n HR Hn HL. unfold get, getz. destruct (fill_len r n HR Hn) as (A & B & C).
  assert (r_cnt (fst (fill_buffer r n)) <= length (rbits r)).
  { rewrite <- B. unfold rbits. rewrite app_length, lsbs_length. lia. }
  destruct (Nat.ltb_spec (r_cnt (fst (fill_buffer r n))) n); [reflexivity|lia].
Qed.

(** * Sets of one-bit codes *)
Definition flat (lens : list nat) : Prop := (exists i, coded lens i) /\ Forall (fun l => l <= 1) lens.

Lemma dec_rows_in : forall t next k r, In r (dec_rows next k t) ->
  k <= i_value r /\ i_len r = nth (i_value r - k) t O /\ i_len r <> O /\ (0 <= i_code r)%Z.
Proof.
  induction t as [|x t IH]; intros next k r H; [destruct H|]. destruct x as [|x]; cbn [dec_rows] in H.
  - destruct (IH _ _ _ H) as (A & B & C & D). split; [lia|]. split; auto. rewrite B.
    replace (i_value r - k) with (S (i_value r - S k)) by lia. reflexivity.
  - destruct H as [<-|H].
    + cbn [i_value i_len i_code]. rewrite Nat.sub_diag. split; [lia|]. split; [reflexivity|]. split; [discriminate|].
      unfold normalize. apply Z.mod_pos_bound. reflexivity.
    + destruct (IH _ _ _ H) as (A & B & C & D). split; [lia|]. split; auto. rewrite B.
      replace (i_value r - k) with (S (i_value r - S k)) by lia. reflexivity.
Qed.

Lemma dec_rows_zero : forall t next k, nth 1 next 0%Z = 0%Z -> Forall (fun l => l <= 1) t ->
  (exists i, nth i t O <> O) -> exists r, In r (dec_rows next k t) /\ i_code r = 0%Z.
Proof.
  induction t as [|x t IH]; intros next k HN HF (i & Hi); [destruct i; cbn in Hi; lia|].
  inversion HF; subst. destruct x as [|[|x]]; [| |lia]; cbn [dec_rows].
  - destruct i as [|i]; [cbn in Hi; lia|]. apply IH; auto. exists i. exact Hi.
  - eexists. split; [left; reflexivity|]. cbn [i_code]. rewrite HN. reflexivity.
Qed.

Definition flat_ok (lens : list nat) (d : decoder) : Prop :=
  exists rows cache, d = mkdec 1 1 rows cache /\ length cache = 2
  /\ (forall e, In e cache -> e = EEmpty \/ exists i, e = EValue i 1 /\ coded lens i)
  /\ (forall r, In r rows -> i_len r = 1 /\ coded lens (i_value r))
  /\ (exists r rest, rows = r :: rest /\ i_code r = 0%Z).

Lemma flat_max : forall lens, flat lens -> max_bits lens = 1.
Proof.
  intros lens [(i & Ci) HF]. rewrite Forall_forall in HF.
  assert (L : (i < length lens)) by (destruct (Nat.lt_ge_cases i (length lens)); auto; unfold coded in Ci; rewrite nth_overflow in Ci by auto; lia).
  pose proof (max_bits_bound lens _ (nth_In lens O L)) as B. unfold coded in Ci.
  pose proof (HF _ (max_bits_in lens ltac:(lia))). lia.
Qed.

Lemma flat_rows : forall lens, flat lens ->
  (forall r, In r (sort_rows (dec_rows [0%Z; 0%Z] 0 lens)) -> i_len r = 1 /\ coded lens (i_value r))
  /\ exists r rest, sort_rows (dec_rows [0%Z; 0%Z] 0 lens) = r :: rest /\ i_code r = 0%Z.
Proof.
  intros lens [HE HF].
  assert (P : forall r, In r (sort_rows (dec_rows [0%Z; 0%Z] 0 lens)) -> i_len r = 1 /\ coded lens (i_value r) /\ (0 <= i_code r)%Z).
  { intros r Hr. apply (Permutation_in _ (sort_perm _)) in Hr. apply dec_rows_in in Hr as (A & B & C & D).
    rewrite Nat.sub_0_r in B. unfold coded. rewrite <- B. split; auto.
    rewrite Forall_forall in HF.
    destruct (Nat.lt_ge_cases (i_value r) (length lens)) as [L|L]; [|rewrite nth_overflow in B by auto; lia].
    pose proof (HF _ (nth_In lens O L)). lia. }
  split; [intros r Hr; destruct (P r Hr) as (A & B & _); auto|].
  destruct (dec_rows_zero lens [0%Z; 0%Z] 0 eq_refl HF HE) as (z & Iz & Ez).
  apply (Permutation_in _ (Permutation_sym (sort_perm _))) in Iz.
  pose proof (sort_sorted (dec_rows [0%Z; 0%Z] 0 lens)) as SS.
  destruct (sort_rows (dec_rows [0%Z; 0%Z] 0 lens)) as [|r rest]; [destruct Iz|].
  exists r, rest. split; auto. destruct (P r ltac:(left; auto)) as (_ & _ & N).
  destruct Iz as [->|Iz]; auto. inversion SS; subst. rewrite Forall_forall in H2. specialize (H2 z Iz). unfold ile in H2. lia.
Qed.

Lemma flat_init : forall lens d, flat lens -> dec_init lens = Some d -> flat_ok lens d.
Proof.
  intros lens d HF H. pose proof (flat_max lens HF) as M. destruct (flat_rows lens HF) as [R1 R2].
  unfold dec_init in H. destruct lens as [|x t] eqn:EL; [discriminate|]. rewrite <- EL in *.
  rewrite M in H. cbn [Nat.ltb Nat.leb Nat.eqb Nat.sub dec_starts] in H.
  change (next_code []) with [0%Z; 0%Z] in H. cbv zeta in H.
  match type of H with (if ?c then _ else _) = _ => destruct c; [discriminate|] end.
  cbn [negb andb] in H. injection H as <-.
  eexists _, _. split; [reflexivity|]. split; [reflexivity|]. split; [|split; auto].
  intros e He. destruct He as [<-|[<-|[]]]; auto.
Qed.

Lemma flat_decode : forall lens d c, flat_ok lens d -> (0 <= c < 2 ^ 32)%Z ->
  exists d' i, decode d c = Some (d', i, 1) /\ flat_ok lens d' /\ coded lens i.
Proof.
  intros lens d c (rows & cache & -> & HL & HE & HR & HZ) Hc. unfold decode. cbn [d_cbits d_cache d_rows d_max].
  change (Z.shiftl 1 (Z.of_nat 1) - 1)%Z with (Z.ones 1). rewrite Z.land_ones by lia. change (2 ^ 1)%Z with 2%Z.
  pose proof (Z.mod_pos_bound c 2 ltac:(lia)) as MB. remember (Z.to_nat (c mod 2)) as x eqn:Ex.
  assert (HX : x < length cache) by lia.
  destruct (nth_error cache x) as [e|] eqn:E; [|apply nth_error_None in E; lia].
  pose proof (HE e (nth_error_In _ _ E)) as [-> | (i & -> & Ci)].
  - pose proof (bit_reverse_range c Hc) as B.
    assert (F : exists i, fill_entry (mkdec 1 1 rows cache) (bit_reverse32 c) = Some (EValue i 1) /\ coded lens i).
    { unfold fill_entry. cbn [d_rows d_cbits].
      set (v := Z.land (bit_reverse32 c) (ncache_mask (mkdec 1 1 rows cache))).
      assert (N : (0 <= v)%Z) by (apply Z.land_nonneg; lia).
      assert (U : exists b, upper_bound rows v = S b /\ b < length rows).
      { destruct HZ as (r & rest & -> & Z0). cbn [upper_bound]. rewrite Z0.
        destruct (Z.ltb_spec v 0); [lia|]. eexists. split; [reflexivity|]. cbn [length].
        assert (UB : forall l, upper_bound l v <= length l) by (induction l as [|y l IH]; cbn; [lia|destruct (v <? i_code y)%Z; lia]).
        specialize (UB rest). lia. }
      destruct U as (b & -> & Hb). destruct (HR _ (nth_In rows dummy Hb)) as [A C]. rewrite A. cbn [Nat.leb]. eauto. }
    destruct F as (i & F & Ci). rewrite F. eexists _, i. split; [reflexivity|]. split; auto.
    eexists _, _. split; [reflexivity|]. split; [rewrite upd_length; auto|]. split; auto.
    intros e He. apply In_nth with (d := EEmpty) in He as (k & Hk & <-). rewrite upd_length in Hk.
    destruct (Nat.eq_dec k x) as [->|]; [rewrite upd_nth_eq by auto; eauto|].
    rewrite upd_nth_neq by auto. apply HE. apply nth_In. auto.
  - eexists _, i. split; [reflexivity|]. split; auto. eexists _, _. split; [reflexivity|]. auto.
Qed.

Lemma flat_symbol : forall lens d r, flat_ok lens d -> rok r ->
  exists d' r' res, decode_symbol d r = Some (d', r', res) /\ flat_ok lens d' /\ rok r' /\
  match res with
  | Some i => coded lens i /\ exists b, rbits r = b :: rbits r'
  | None => rbits r' = rbits r /\ rbits r = []
  end.
Proof.
  intros lens d r HF HR. unfold decode_symbol.
  assert (DM : d_max d = 1) by (destruct HF as (rows & cache & -> & _); reflexivity). rewrite DM.
  pose proof (fill_buffer_spec r 1 HR ltac:(lia)) as F.
  destruct (fill_buffer r 1) as [r1 ok]. cbn [fst]. destruct F as (F1 & F2 & F3).
  destruct (flat_decode lens d (r_buf r1 mod 2 ^ 32) HF ltac:(apply Z.mod_pos_bound; reflexivity)) as (d' & i & D & HF' & Ci).
  rewrite D. destruct (Nat.ltb_spec (r_cnt r1) 1) as [LT|GE].
  - do 3 eexists. split; [reflexivity|]. split; auto. split; auto. split; auto.
    destruct ok; [lia|]. destruct F3 as [_ F4]. rewrite <- F2. unfold rbits. rewrite F4. replace (r_cnt r1) with O by lia. reflexivity.
  - destruct (skip_bits_spec r1 1 F1 GE) as [S1 S2]. do 3 eexists. split; [reflexivity|]. split; auto.
    split; auto. split; auto. rewrite S2, <- F2. pose proof (rbits_buf r1 1 F1 GE) as RB.
    destruct (rbits r1) as [|b t]; [cbn in RB; discriminate|]. exists b. reflexivity.
Qed.

Lemma decoder_of_flat : forall lens d, flat lens -> decoder_of lens d -> flat_ok lens d.
Proof.
  intros lens d HF H. induction H as [d H|d r d' r' res H IH HR D].
  - apply flat_init; auto.
  - destruct (flat_symbol lens d r IH HR) as (d1 & r1 & res1 & D1 & OK & _).
    rewrite D1 in D. injection D as <- <- <-. exact OK.
Qed.

(** * Symbols *)
Lemma reads_app : forall b lens s i s' t, reads b lens s i s' -> reads b lens (s ++ t) i (s' ++ t).
Proof.
  intros b lens s i s' t [A B]. split; auto. destruct b.
  - rewrite B, app_assoc. reflexivity.
  - destruct B as [B C]. split; intros H.
    + rewrite (B H), app_assoc. reflexivity.
    + destruct (C H) as (x & ->). exists x. reflexivity.
Qed.

Lemma complete_dec : forall lens, complete lens \/ ~ complete lens.
Proof.
  intros lens. unfold complete.
  destruct (Forall_dec (fun l => l <= 32) (fun l => le_dec l 32) lens) as [F|F]; [|right; tauto].
  destruct (Z.eq_dec (zsum (map weight lens)) (2 ^ 32)); [left|right]; tauto.
Qed.

Lemma one_flat : forall lens i, one_code lens i -> flat lens.
Proof.
  intros lens i [H1 H2]. split.
  - exists i. unfold coded. rewrite H1. discriminate.
  - apply Forall_forall. intros x Hx. apply (In_nth _ _ O) in Hx as (j & _ & <-).
    destruct (Nat.eq_dec j i) as [->|N]; [rewrite H1|rewrite (H2 j N)]; lia.
Qed.

Lemma usable_strict : forall lens, usable true lens -> usable false lens.
Proof. intros lens [H|(i & H)]; [left; auto|]. right. destruct (one_flat lens i H). split; auto. Qed.

Lemma usable_max : forall lens, usable false lens -> (1 <= max_bits lens <= 32).
Proof.
  intros lens [H|H]; [pose proof (max_pos lens H); pose proof (max_le lens H); lia|].
  rewrite (flat_max lens H). lia.
Qed.

Lemma reads_true_false : forall lens s i s', usable true lens -> reads true lens s i s' -> reads false lens s i s'.
Proof.
  intros lens s i s' HU [A B]. split; auto. split; auto. intros NC.
  destruct HU as [HU|(j & HO)]; [contradiction|]. destruct HO as [H1 H2].
  assert (i = j) as -> by (destruct (Nat.eq_dec i j); auto; exfalso; apply A; auto).
  unfold codeword in B. rewrite H1 in B. cbn in B. eexists. exact B.
Qed.

Lemma dsym : forall lens d r, usable false lens -> decoder_of lens d -> rok r ->
  exists d' r' res, decode_symbol d r = Some (d', r', res) /\ decoder_of lens d' /\ rok r'
  /\ r_cnt r' <= Nat.max (r_cnt r) (max_bits lens + 7)
  /\ match res with
     | Some i => reads false lens (rbits r) i (rbits r') /\ length (rbits r') < length (rbits r)
                 /\ length (rbits r) <= length (rbits r') + max_bits lens
                 /\ forall t j s', usable true lens -> reads true lens (rbits r ++ t) j s' -> j = i /\ s' = rbits r' ++ t
     | None => rbits r' = rbits r /\ length (rbits r) < max_bits lens
               /\ forall j s', ~ reads true lens (rbits r) j s'
     end.
Proof.
  intros lens d r HU HD HR.
  assert (CNT : forall m, d_max d = m -> forall d' r' res, decode_symbol d r = Some (d', r', res) -> r_cnt r' <= Nat.max (r_cnt r) (m + 7)).
  { intros m Hm d' r' res H. unfold decode_symbol in H. rewrite Hm in H. pose proof (fill_cnt r m) as FC.
    destruct (decode d (r_buf (fst (fill_buffer r m)) mod 2 ^ 32)) as [[[d1 v] l]|]; [|discriminate].
    destruct (r_cnt (fst (fill_buffer r m)) <? l); injection H as _ <- _; cbn [skip_bits r_cnt]; lia. }
  destruct (complete_dec lens) as [HK|NK].
  - pose proof (decoder_of_ok lens d HK HD) as OK.
    assert (DM : d_max d = max_bits lens) by (destruct OK as (cache & -> & _); reflexivity).
    destruct (decode_symbol_spec lens HK d r OK HR) as (d' & r' & res & D & OK' & R & S).
    exists d', r', res. split; auto. split; [exact (dec_used lens d r d' r' res HD HR D)|]. split; auto. split; [apply (CNT _ DM _ _ _ D)|].
    destruct res as [i|].
    + destruct S as [Ci E]. pose proof (coded_len lens HK i Ci). pose proof (len_max lens i).
      split; [split; auto; split; [auto|contradiction]|].
      split; [rewrite E, app_length, codeword_length; lia|]. split; [rewrite E, app_length, codeword_length; lia|].
      intros t j s' _ [Cj Ej]. rewrite E, <- app_assoc in Ej.
      pose proof (codeword_prefix_free lens HK i j _ _ Ci Cj Ej). subst j. apply app_inv_head in Ej. auto.
    + destruct S as [E NP]. split; auto. split.
      * (* fewer than max bits *)
        pose proof (max_le lens HK). unfold decode_symbol in D. rewrite DM in D.
        destruct (fill_len r (max_bits lens) HR ltac:(lia)) as (A & B & C).
        destruct (snd (fill_buffer r (max_bits lens))); [|exact C]. destruct C as [C _].
        destruct (decode_bits lens HK d (r_buf (fst (fill_buffer r (max_bits lens))) mod 2 ^ 32) OK ltac:(apply Z.mod_pos_bound; reflexivity))
          as (d1 & i & D1 & _ & Ci & _). rewrite D1 in D. pose proof (len_max lens i).
        destruct (Nat.ltb_spec (r_cnt (fst (fill_buffer r (max_bits lens)))) (nth i lens 0)); [lia|discriminate].
      * intros j s' [Cj Ej]. apply (NP j Cj). exists s'. exact Ej.
  - destruct HU as [HU|HF]; [contradiction|]. change (flat lens) in HF.
    pose proof (decoder_of_flat lens d HF HD) as OK.
    assert (DM : d_max d = 1) by (destruct OK as (rows & cache & -> & _); reflexivity).
    destruct (flat_symbol lens d r OK HR) as (d' & r' & res & D & OK' & R & S).
    exists d', r', res. split; auto. split; [exact (dec_used lens d r d' r' res HD HR D)|]. split; auto.
    rewrite (flat_max lens HF). split; [apply (CNT _ DM _ _ _ D)|].
    destruct res as [i|].
    + destruct S as [Ci (b & E)]. split; [split; auto; split; [contradiction|eauto]|].
      rewrite E. cbn [length]. split; [lia|]. split; [lia|].
      intros t j s' UT [Cj Ej]. destruct UT as [UT|(k & HO)]; [contradiction|]. destruct HO as [H1 H2].
      assert (K : forall x, coded lens x -> x = k) by (intros x Cx; destruct (Nat.eq_dec x k); auto; exfalso; apply Cx; auto).
      rewrite (K i Ci), (K j Cj) in *. split; auto. unfold codeword in Ej. rewrite H1 in Ej. cbn in Ej. injection Ej as _ Ej. auto.
    + destruct S as [E S]. split; auto. rewrite S. split; [cbn; lia|]. intros j s' [Cj Ej]. cbn in Ej.
      symmetry in Ej. apply app_eq_nil in Ej as [Ej _]. apply (f_equal (@length bool)) in Ej.
      rewrite codeword_length in Ej. apply Cj. exact Ej.
Qed.
