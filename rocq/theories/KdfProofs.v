From Coq Require Import ZArith List Lia Bool Arith.
From Verif Require Import Base Blocks HashModel HashSpec HashProofs IntegerCodecProofs KdfModel KdfSpec.
Import ListNotations.
Local Open Scope Z_scope.

(* ---------------------------------------------------------------- loops *)
Definition stops (timed : bool) (clock : nat -> bool) (iterations k : nat) : Prop :=
  (iterations <= k)%nat /\ (timed = true -> (k mod 128 = 0)%nat /\ clock k = false).

Lemma timed_loop_spec : forall (A : Type) (P : nat -> A -> Prop) step timed clock it,
  (forall j x, (1 <= j)%nat -> P j x -> exists x1, step x = Some x1 /\ P (j + 1)%nat x1) ->
  forall fuel k j x, stops timed clock it k -> (1 <= j <= k)%nat -> (k - j < fuel)%nat -> P j x ->
  exists n y, timed_loop fuel timed clock it j step x = Some (n, y) /\ P n y /\ (j <= n <= k)%nat /\ (it <= n)%nat /\ (timed = false -> n = Nat.max j it).
Proof.
  intros A P step timed clock it Hs. induction fuel as [|fuel IH]; intros k j x Hk Hj Hf HP; [lia|]. cbn [timed_loop]. pose proof (proj1 Hk) as Hit.
  destruct (Nat.ltb_spec j it) as [L|L]; cbn [orb].
  - destruct (Hs j x ltac:(lia) HP) as (x1 & -> & P1). destruct (IH k (j + 1)%nat x1 Hk) as (n & y & E & E1 & E2 & E3 & E4); [destruct Hk; lia|lia|exact P1|].
    exists n, y. repeat split; auto; try lia. intros T. rewrite E4 by auto. lia.
  - destruct (timed && (negb (Nat.eqb (j mod 128) 0) || clock j)) eqn:Et.
    + destruct (Hs j x ltac:(lia) HP) as (x1 & -> & P1). apply andb_true_iff in Et. destruct Et as [Et1 Et2].
      assert (j <> k). { intros ->. destruct Hk as [_ Hk]. destruct (Hk Et1) as [K1 K2]. rewrite K1, K2 in Et2. discriminate Et2. }
      destruct (IH k (j + 1)%nat x1 Hk) as (n & y & E & E1 & E2 & E3 & E4); [lia|lia|exact P1|].
      exists n, y. repeat split; auto; try lia. intros T. congruence.
    + exists j, x. repeat split; auto; lia.
Qed.

(* ---------------------------------------------------------------- blocks of output *)
Lemma ceil_step : forall len d, d <> 0%nat -> len <> 0%nat -> ceil_div len d = S (ceil_div (len - Nat.min len d) d).
Proof.
  intros len d Hd Hl. unfold ceil_div. destruct (Nat.le_gt_cases len d) as [L|L].
  - rewrite Nat.min_l by lia. rewrite Nat.sub_diag. cbn [Nat.add]. replace (len + d - 1)%nat with ((len - 1) + 1 * d)%nat by lia.
    rewrite Nat.div_add, !Nat.div_small by lia. reflexivity.
  - rewrite Nat.min_r by lia. replace (len + d - 1)%nat with ((len - d + d - 1) + 1 * d)%nat by lia. rewrite Nat.div_add by lia. lia.
Qed.
Lemma ceil_le : forall len d, (ceil_div len d <= len)%nat.
Proof.
  intros len d. unfold ceil_div. destruct d as [|d]; [cbn; lia|]. destruct len as [|len]; [rewrite Nat.div_small; lia|].
  apply Nat.div_le_upper_bound; [lia|]. nia.
Qed.
Lemma ceil_bound : forall len d k, d <> 0%nat -> (len <= d * k)%nat -> (ceil_div len d <= k)%nat.
Proof. intros len d k Hd H. unfold ceil_div. apply Nat.lt_succ_r. apply Nat.div_lt_upper_bound; [lia|]. nia. Qed.
Lemma blocks_step : forall len d i (block : nat -> list Z), d <> 0%nat -> len <> 0%nat -> length (block i) = d ->
  firstn len (concat (map block (seq i (ceil_div len d)))) =
  firstn (Nat.min len d) (block i) ++ firstn (len - Nat.min len d) (concat (map block (seq (S i) (ceil_div (len - Nat.min len d) d)))).
Proof.
  intros len d i block Hd Hl Lb. rewrite ceil_step by auto. cbn [seq map concat]. rewrite firstn_app, Lb.
  destruct (Nat.le_gt_cases len d); [rewrite Nat.min_l by lia; replace (len - d)%nat with (len - len)%nat by lia; reflexivity|].
  rewrite Nat.min_r by lia. rewrite !firstn_all2 with (l := block i) by lia. reflexivity.
Qed.

Lemma be4 : forall i, map (fun j => Z.shiftr i ((3 - j) * 8) mod 256) [0; 1; 2; 3] = be_bytes 4 i.
Proof.
  intros i. unfold be_bytes. cbn [le_bytes rev app map]. rewrite !Z.shiftr_div_pow2 by lia. change (2 ^ ((3 - 0) * 8)) with (256 * (256 * 256)). change (2 ^ ((3 - 1) * 8)) with (256 * 256).
  change (2 ^ ((3 - 2) * 8)) with 256. change (2 ^ ((3 - 3) * 8)) with 1. rewrite Z.div_1_r, <- !Z.div_div by lia. reflexivity.
Qed.
Lemma concat_singles : forall (A : Type) (l : list A), concat (map (fun x => [x]) l) = l.
Proof. induction l; cbn; congruence. Qed.

(* ---------------------------------------------------------------- the hash object *)
Section Obj.
  Context {T : Type} (o : hobj T) (rep : T -> list Z -> Prop) (hash : list Z -> list Z) (limit : Z) (ok : list Z -> Prop).
  Hypothesis Himp : implements o rep hash ok.
  Hypothesis Hok : forall m, Z.of_nat (length m) < limit -> ok m.
  Hypothesis HB : ho_bsize o <> 0%nat.
  Hypothesis HD : ho_dsize o <> 0%nat.
  Local Notation B := (ho_bsize o). Local Notation D := (ho_dsize o).
  Local Notation mac := (hmac_spec hash B).

  Lemma hash_len : forall m, length (hash m) = D. Proof. exact (imp_length _ _ _ _ Himp). Qed.
  Lemma mac_len : forall k m, length (mac k m) = D. Proof. intros. unfold hmac_spec. apply hash_len. Qed.

  Lemma ho_digest_spec : forall s m d, rep s m -> Z.of_nat (length (m ++ d)) < limit -> exists s1, ho_digest o s d = Some (s1, hash (m ++ d)) /\ rep s1 [].
  Proof.
    intros s m d R L. unfold ho_digest. destruct (imp_update _ _ _ _ Himp s m d R (Hok _ L)) as (s1 & -> & R1).
    destruct (imp_final _ _ _ _ Himp s1 _ D R1 (Nat.le_refl _)) as [F1 F2]. destruct (ho_final o s1 D) as [s2 t]. cbn [fst snd] in *. exists s2. split; [|exact F1].
    rewrite F2, firstn_all2 by (rewrite hash_len; lia). reflexivity.
  Qed.

  Lemma mac_ok_of : forall k m, Z.of_nat (length k) < limit -> Z.of_nat (B + 2 * D + length m) < limit -> mac_ok o hash ok k m.
  Proof.
    intros k m Hk Hm. assert (Lk : (length (hmac_key hash B k) <= B + D)%nat).
    { unfold hmac_key. destruct (Nat.leb_spec (length k) B); rewrite app_length, repeat_length; [lia|]. rewrite hash_len. lia. }
    unfold mac_ok. split; [apply Hok; exact Hk|]. split; apply Hok; rewrite app_length; unfold xor_with; rewrite map_length, ?hash_len; lia.
  Qed.

  Lemma hm_update_spec : forall m k a d, mrep o rep hash m k a -> Z.of_nat (length k) < limit -> Z.of_nat (B + 2 * D + length (a ++ d)) < limit ->
    exists m1, hm_update o m d = Some m1 /\ mrep o rep hash m1 k (a ++ d).
  Proof.
    intros m k a d R Lk L. destruct (hm_step_spec o rep hash ok Himp HB m k a (MUpdate d) R) as (m1 & E & R1); [apply mac_ok_of; auto|].
    cbn [hm_step spec_mstep fst snd] in E, R1. destruct (hm_update o m d) as [m2|]; [|discriminate E]. injection E as ->. exists m1. auto.
  Qed.
  Lemma hm_final_spec : forall m k a, mrep o rep hash m k a -> Z.of_nat (length k) < limit -> Z.of_nat (B + 2 * D + length a) < limit ->
    exists m1, hm_final o m D = Some (m1, Some (mac k a)) /\ mrep o rep hash m1 k [].
  Proof.
    intros m k a R Lk L. destruct (hm_step_spec o rep hash ok Himp HB m k a (MFinal D) R) as (m1 & E & R1); [apply mac_ok_of; auto|].
    cbn [hm_step spec_mstep] in E, R1. rewrite Nat.leb_refl in E, R1. cbn [fst snd] in E, R1. rewrite firstn_all2 in E by (rewrite mac_len; lia).
    destruct (hm_final o m D) as [[m2 [t|]]|]; [|discriminate E|discriminate E]. injection E as -> ->. exists m1. auto.
  Qed.
  Lemma hm_updates_spec : forall ds m k a, mrep o rep hash m k a -> Z.of_nat (length k) < limit -> Z.of_nat (B + 2 * D + length (a ++ concat ds)) < limit ->
    exists m1, hm_updates o m ds = Some m1 /\ mrep o rep hash m1 k (a ++ concat ds).
  Proof.
    induction ds as [|d ds IH]; intros m k a R Lk L; cbn [hm_updates concat] in *; [rewrite app_nil_r; eauto|].
    destruct (hm_update_spec m k a d R Lk) as (m1 & -> & R1); [rewrite !app_length in *; lia|]. rewrite app_assoc in L |- *. apply IH; auto.
  Qed.
  Lemma hm_digest_spec : forall m k a d, mrep o rep hash m k a -> Z.of_nat (length k) < limit -> Z.of_nat (B + 2 * D + length (a ++ d)) < limit ->
    exists m1, hm_digest o m d = Some (m1, mac k (a ++ d)) /\ mrep o rep hash m1 k [].
  Proof.
    intros m k a d R Lk L. unfold hm_digest. destruct (hm_update_spec m k a d R Lk L) as (m1 & -> & R1).
    destruct (hm_final_spec m1 k _ R1 Lk L) as (m2 & -> & R2). eauto.
  Qed.

  (* -------------------------------------------------------------- PBKDF1 *)
  Lemma pbkdf1_ok : forall fuel s secret salt iterations len timed clock k, rep s [] ->
    Z.of_nat (D + length secret + length salt) < limit -> (len <= D)%nat -> stops timed clock (count iterations) k -> (k <= fuel)%nat ->
    exists n, pbkdf1 o fuel s secret salt iterations len timed clock = Some (KKey n (pbkdf1_spec hash secret salt n len)) /\
      (count iterations <= n <= k)%nat /\ (timed = false -> n = count iterations).
  Proof.
    intros fuel s secret salt iterations len timed clock k R L Hlen Hk Hf. unfold pbkdf1. rewrite (proj2 (Nat.ltb_ge _ _)) by exact Hlen.
    assert (Ec : (if Nat.eqb iterations 0 then 1%nat else iterations) = count iterations) by (unfold count; destruct iterations; cbn [Nat.eqb]; lia). rewrite Ec.
    assert (C1 : (1 <= count iterations)%nat) by (unfold count; lia).
    destruct (imp_update _ _ _ _ Himp s [] secret R) as (s1 & -> & R1); [apply Hok; cbn [app]; lia|]. cbn [app] in R1.
    destruct (imp_update _ _ _ _ Himp s1 _ salt R1) as (s2 & -> & R2); [apply Hok; rewrite app_length; lia|].
    destruct (imp_final _ _ _ _ Himp s2 _ D R2 (Nat.le_refl _)) as [F1 F2].
    destruct (timed_loop_spec (T * list Z) (fun j '(h, b) => rep h [] /\ b = Nat.iter j hash (secret ++ salt)) (fun '(h, buffer) => ho_digest o h buffer) timed clock (count iterations))
      with (fuel := fuel) (k := k) (j := 1%nat) (x := ho_final o s2 D) as (n & [h b] & E & [E1 E1'] & E2 & E3 & E4).
    - intros j [h b] Hj [Hr ->]. destruct (ho_digest_spec h [] (Nat.iter j hash (secret ++ salt)) Hr) as (h1 & -> & Hr1).
      + cbn [app]. destruct j; [lia|]. cbn [Nat.iter nat_rect]. rewrite hash_len. lia.
      + eexists. split; [reflexivity|]. cbn beta iota. split; [exact Hr1|]. replace (j + 1)%nat with (S j) by lia. reflexivity.
    - exact Hk.
    - destruct Hk. lia.
    - destruct Hk. lia.
    - destruct (ho_final o s2 D) as [h b]. cbn [fst snd] in *. split; [exact F1|]. rewrite F2, firstn_all2 by (rewrite hash_len; lia). reflexivity.
    - rewrite E. exists n. subst b. split; [reflexivity|]. split; [lia|]. intros Ht. rewrite E4 by exact Ht. lia.
  Qed.

  (* -------------------------------------------------------------- PBKDF2 *)
  Lemma t_succ : forall prf salt i j, (1 <= j)%nat -> pbkdf2_t prf salt (j + 1) i = xorl (pbkdf2_t prf salt j i) (pbkdf2_u prf salt i (j + 1)).
  Proof.
    intros prf salt i j Hj. unfold pbkdf2_t. replace (j + 1 - 1)%nat with ((j - 1) + 1)%nat by lia. rewrite seq_app, fold_left_app. cbn [seq fold_left].
    replace (2 + (j - 1))%nat with (j + 1)%nat by lia. reflexivity.
  Qed.
  Lemma u_len : forall k salt i j, (1 <= j)%nat -> length (pbkdf2_u (mac k) salt i j) = D.
  Proof. intros k salt i j Hj. unfold pbkdf2_u. destruct j; [lia|]. cbn [Nat.iter nat_rect]. apply mac_len. Qed.
  Lemma t_len : forall k salt i j, (1 <= j)%nat -> length (pbkdf2_t (mac k) salt j i) = D.
  Proof.
    intros k salt i j. induction j as [|j IH]; intros Hj; [lia|]. destruct (Nat.eq_dec j 0) as [->|N]; [unfold pbkdf2_t; cbn [Nat.sub seq fold_left]; apply u_len; lia|].
    replace (S j) with (j + 1)%nat by lia. rewrite t_succ, xorl_length, IH, u_len by lia. lia.
  Qed.

  Section P2.
    Variables (secret salt : list Z) (fuel : nat) (clock : nat -> bool).
    Hypothesis HL : Z.of_nat (B + 3 * D + length secret + length salt + 4) < limit.

    Lemma one_block : forall m i len timed it k, mrep o rep hash m secret [] -> len <> 0%nat -> stops timed clock it k -> (1 <= it)%nat -> (k <= fuel)%nat ->
      let seg := Nat.min len D in
      exists m1 m2 u n m3 b3, hm_updates o m (salt :: map (fun j => [Z.shiftr (Z.of_nat i) ((3 - j) * 8) mod 256]) [0; 1; 2; 3]) = Some m1 /\
        hm_final o m1 D = Some (m2, Some u) /\ length u = D /\
        timed_loop fuel timed clock it 1
          (fun '(h, buf, derived) => match hm_digest o h buf with
                                     | Some (h1, buf1) => Some (h1, buf1, xorl derived (firstn seg buf1))
                                     | None => None
                                     end) (m2, u, firstn seg u) = Some (n, (m3, b3, firstn seg (pbkdf2_t (mac secret) salt n i))) /\
        mrep o rep hash m3 secret [] /\ (it <= n <= k)%nat /\ (timed = false -> n = it).
    Proof.
      intros m i len timed it k R Hlen Hk Hit Hf seg.
      destruct (hm_updates_spec (salt :: map (fun j => [Z.shiftr (Z.of_nat i) ((3 - j) * 8) mod 256]) [0; 1; 2; 3]) m secret [] R) as (m1 & E1 & R1); [lia| |].
      { cbn [app concat]. rewrite app_length. cbn [map concat app length]. lia. }
      assert (Ec : concat (salt :: map (fun j => [Z.shiftr (Z.of_nat i) ((3 - j) * 8) mod 256]) [0; 1; 2; 3]) = salt ++ be_bytes 4 (Z.of_nat i)).
      { cbn [concat]. f_equal. rewrite <- be4. cbn [map concat app]. reflexivity. }
      rewrite Ec in R1. cbn [app] in R1.
      destruct (hm_final_spec m1 secret _ R1) as (m2 & E2 & R2); [lia|rewrite app_length, be_bytes_length; lia|].
      destruct (timed_loop_spec (hmac T * list Z * list Z)
        (fun j '(h, buf, derived) => mrep o rep hash h secret [] /\ buf = pbkdf2_u (mac secret) salt i j /\ derived = firstn seg (pbkdf2_t (mac secret) salt j i))
        (fun '(h, buf, derived) => match hm_digest o h buf with
                                     | Some (h1, buf1) => Some (h1, buf1, xorl derived (firstn seg buf1))
                                     | None => None
                                     end) timed clock it)
        with (fuel := fuel) (k := k) (j := 1%nat) (x := (m2, mac secret (salt ++ be_bytes 4 (Z.of_nat i)), firstn seg (mac secret (salt ++ be_bytes 4 (Z.of_nat i)))))
        as (n & [[m3 b3] d3] & F1 & (F2 & F3 & F4) & F5 & F6 & F7).
      - intros j [[h buf] derived] Hj (H1 & -> & ->). destruct (hm_digest_spec h secret [] (pbkdf2_u (mac secret) salt i j) H1) as (h1 & -> & H2); [lia|cbn [app]; rewrite u_len by lia; lia|].
        cbn [app]. eexists. split; [reflexivity|]. cbn beta iota. split; [exact H2|]. replace (j + 1)%nat with (S j) at 1 by lia. split; [reflexivity|].
        rewrite t_succ, xorl_firstn by lia. do 2 f_equal. replace (j + 1)%nat with (S j) by lia. reflexivity.
      - exact Hk.
      - destruct Hk. lia.
      - destruct Hk. lia.
      - split; [exact R2|]. split; reflexivity.
      - subst d3. exists m1, m2, (mac secret (salt ++ be_bytes 4 (Z.of_nat i))), n, m3, b3. split; [exact E1|]. split; [exact E2|]. split; [apply mac_len|]. split; [exact F1|]. split; [exact F2|]. split; [lia|]. intros Ht. rewrite F7 by exact Ht. lia.
    Qed.

    Lemma pbkdf2_loop_spec : forall blocks m i len timed it k, mrep o rep hash m secret [] -> (ceil_div len D <= blocks)%nat -> (1 <= i)%nat ->
      Z.of_nat i + Z.of_nat (ceil_div len D) <= 2 ^ 32 -> stops timed clock it k -> (1 <= it)%nat -> (k <= fuel)%nat ->
      exists n, pbkdf2_loop o fuel blocks m salt (Z.of_nat i mod 2 ^ 32) len it timed clock =
        Some (n, firstn len (concat (map (pbkdf2_t (mac secret) salt n) (seq i (ceil_div len D))))) /\ (it <= n <= k)%nat /\ (timed = false -> n = it).
    Proof.
      induction blocks as [|b IH]; intros m i len timed it k R Hb Hi1 Hi Hk Hit Hf.
      - assert (len = 0%nat). { destruct (Nat.eq_dec len 0); auto. rewrite ceil_step in Hb by auto. lia. } subst len. cbn [pbkdf2_loop Nat.eqb firstn].
        exists it. destruct Hk. repeat split; auto; lia.
      - cbn [pbkdf2_loop]. destruct (Nat.eqb_spec len 0) as [->|N].
        { exists it. destruct Hk. cbn [firstn]. repeat split; auto; lia. }
        rewrite Z.mod_small by (rewrite ceil_step in Hi by auto; lia).
        destruct (one_block m i len timed it k R N Hk Hit Hf) as (m1 & m2 & u & n & m3 & b3 & E1 & E2 & E3 & E4 & E5 & E6 & E7).
        rewrite E1, E2, E3, E4.
        rewrite ceil_step in Hb, Hi by auto. replace (Z.of_nat i + 1) with (Z.of_nat (S i)) by lia.
        assert (En : (if timed then n else it) = n) by (destruct timed; [reflexivity|symmetry; auto]). rewrite En.
        destruct (IH m3 (S i) (len - Nat.min len D)%nat false n n E5) as (n2 & F1 & F2 & F3); [lia|lia|lia|split; [lia|discriminate]|lia|lia|].
        rewrite F1. assert (n2 = n) by auto. subst n2. exists n. split; [|split; [lia|auto]].
        rewrite (blocks_step len D i (pbkdf2_t (mac secret) salt n)) by (auto; apply t_len; lia). reflexivity.
    Qed.

    Lemma pbkdf2_ok : forall s iterations len timed k, rep s [] -> Z.of_nat len <= 2 ^ 32 - 1 -> stops timed clock (count iterations) k -> (k <= fuel)%nat ->
      exists n, pbkdf2 o fuel s secret salt iterations len timed clock = Some (KKey n (pbkdf2_spec (mac secret) D salt n len)) /\
        (count iterations <= n <= k)%nat /\ (timed = false -> n = count iterations).
    Proof.
      intros s iterations len timed k R Hlen Hk Hf. unfold pbkdf2. destruct (Z.ltb_spec (2 ^ 32 - 1) (Z.of_nat len)); [lia|].
      assert (Ec : (if Nat.eqb iterations 0 then 1%nat else iterations) = count iterations) by (unfold count; destruct iterations; cbn [Nat.eqb]; lia). rewrite Ec.
      destruct (hm_setkey_spec o rep hash ok Himp HB (hm_new s) secret eq_refl R) as (m & -> & Rm); [apply Hok; lia|].
      rewrite (proj2 (Nat.eqb_neq _ _)) by exact HD. pose proof (ceil_le len D).
      destruct (pbkdf2_loop_spec len m 1 len timed (count iterations) k Rm) as (n & E & E1 & E2); try assumption; try lia; [unfold count; lia|].
      change (Z.of_nat 1 mod 2 ^ 32) with 1 in E. rewrite E. exists n. split; [reflexivity|]. auto.
    Qed.
  End P2.

  (* -------------------------------------------------------------- HKDF *)
  Lemma hkdf_loop_spec : forall prk info, Z.of_nat (length prk) < limit -> Z.of_nat (B + 3 * D + length info + 1) < limit ->
    forall blocks m buffer i len, mrep o rep hash m prk [] -> (ceil_div len D <= blocks)%nat -> (i + ceil_div len D <= 255)%nat ->
    (i <> 0%nat -> buffer = hkdf_t (mac prk) info i) ->
    hkdf_loop o blocks m buffer info (Z.of_nat i) len = Some (firstn len (concat (map (hkdf_t (mac prk) info) (seq (S i) (ceil_div len D))))).
  Proof.
    intros prk info Lp L. induction blocks as [|b IH]; intros m buffer i len R Hb Hi Hbuf.
    - assert (len = 0%nat). { destruct (Nat.eq_dec len 0); auto. rewrite ceil_step in Hb by auto. lia. } subst len. reflexivity.
    - cbn [hkdf_loop]. destruct (Nat.eqb_spec len 0) as [->|N]; [reflexivity|].
      set (ds := (if Z.of_nat i =? 0 then [] else [buffer]) ++ (if Nat.eqb (length info) 0 then [] else [info])).
      assert (Ed : concat ds = hkdf_t (mac prk) info i ++ info).
      { unfold ds. rewrite concat_app. f_equal.
        - destruct (Z.eqb_spec (Z.of_nat i) 0) as [Z0|Z0]; [assert (i = 0%nat) by lia; subst; reflexivity|]. cbn [concat]. rewrite app_nil_r. apply Hbuf. lia.
        - destruct (Nat.eqb_spec (length info) 0) as [Z0|Z0]; [apply length_zero_iff_nil in Z0; subst; reflexivity|]. cbn [concat]. apply app_nil_r. }
      assert (Lt : (length (hkdf_t (mac prk) info i) <= D)%nat) by (destruct i; cbn [hkdf_t length]; [lia|rewrite mac_len; lia]).
      destruct (hm_updates_spec ds m prk [] R Lp) as (m1 & -> & R1); [cbn [app]; rewrite Ed, app_length; lia|]. cbn [app] in R1. rewrite Ed in R1.
      assert (Hi2 : (i + S (ceil_div (len - Nat.min len D) D) <= 255)%nat) by (rewrite ceil_step in Hi by auto; exact Hi).
      rewrite (Z.mod_small (Z.of_nat i + 1)) by lia. replace (Z.of_nat i + 1) with (Z.of_nat (S i)) by lia.
      destruct (hm_digest_spec m1 prk _ [Z.of_nat (S i)] R1 Lp) as (m2 & -> & R2); [rewrite !app_length; cbn [length]; lia|].
      assert (Et : mac prk ((hkdf_t (mac prk) info i ++ info) ++ [Z.of_nat (S i)]) = hkdf_t (mac prk) info (S i)) by (cbn [hkdf_t]; rewrite <- app_assoc; reflexivity).
      rewrite Et. rewrite (IH m2 (hkdf_t (mac prk) info (S i)) (S i) (len - Nat.min len D)%nat R2) by (try lia; auto; rewrite ceil_step in Hb by auto; lia).
      rewrite (blocks_step len D (S i) (hkdf_t (mac prk) info)) by (auto; cbn [hkdf_t]; apply mac_len). reflexivity.
  Qed.
  Lemma hkdf_ok : forall s secret salt info len, rep s [] -> (len <= D * 255)%nat ->
    Z.of_nat (B + 3 * D + length secret + length (match salt with Some x => x | None => [] end) + length info + 1) < limit ->
    hkdf o s secret salt info len = Some (KKey 1 (hkdf_spec mac D secret (match salt with Some x => x | None => repeat 0 D end) info len)).
  Proof.
    intros s secret salt info len R Hlen L. unfold hkdf. rewrite (proj2 (Nat.ltb_ge _ _)) by exact Hlen. set (salt1 := match salt with Some x => x | None => repeat 0 D end).
    assert (L1 : Z.of_nat (length salt1) < limit) by (unfold salt1; destruct salt; [|rewrite repeat_length]; lia).
    destruct (hm_setkey_spec o rep hash ok Himp HB (hm_new s) salt1 eq_refl R) as (m & -> & Rm); [apply Hok; exact L1|].
    destruct (hm_digest_spec m salt1 [] secret Rm L1) as (m1 & -> & R1); [cbn [app]; lia|]. cbn [app].
    destruct (hm_setkey_again o rep hash ok Himp HB m1 salt1 [] (mac salt1 secret) R1) as (m2 & -> & R2); [apply Hok; rewrite mac_len; lia|].
    pose proof (ceil_le len D). change 0 with (Z.of_nat 0) at 2.
    rewrite (hkdf_loop_spec (mac salt1 secret) info) by (try rewrite mac_len; try lia; auto; cbn [Nat.add]; apply ceil_bound; auto). reflexivity.
  Qed.

  (* -------------------------------------------------------------- PKCS #12 *)
  Lemma p12_fill_spec : forall x n, (length x = 0%nat -> n = 0%nat) -> map (fun i => nth (i mod length x) x 0) (seq 0 n) = cycle x n.
  Proof.
    intros x n Hx. unfold cycle. destruct (Nat.eq_dec (length x) 0) as [Z0|Z0]; [rewrite (Hx Z0); reflexivity|].
    assert (Lc : forall k, length (concat (repeat x k)) = (k * length x)%nat) by (induction k; cbn [repeat concat]; [reflexivity|]; rewrite app_length, IHk; lia).
    assert (Nc : forall k i, (i < k * length x)%nat -> nth i (concat (repeat x k)) 0 = nth (i mod length x) x 0).
    { induction k; intros i Hi; [lia|]. cbn [repeat concat]. destruct (Nat.lt_ge_cases i (length x)) as [L|L].
      - rewrite app_nth1, Nat.mod_small by auto. reflexivity.
      - rewrite app_nth2, IHk by lia. f_equal. replace i with ((i - length x) + 1 * length x)%nat at 2 by lia. rewrite Nat.mod_add by auto. reflexivity. }
    assert (Ln : (n <= n * length x)%nat) by nia.
    apply nth_ext with (d := 0) (d' := 0); [rewrite map_length, seq_length, firstn_length, Lc; lia|]. rewrite map_length, seq_length. intros i Hi.
    rewrite nth_firstn_lt by lia. rewrite Nc by lia.
    rewrite (nth_indep _ 0 (nth (0 mod length x) x 0)) by (rewrite map_length, seq_length; lia). rewrite (map_nth (fun i => nth (i mod length x) x 0) (seq 0 n) 0%nat i), seq_nth by lia. reflexivity.
  Qed.
  Lemma round_up_ceil : forall n v, round_up n v = (v * ceil_div n v)%nat.
  Proof. intros. unfold round_up, ceil_div. lia. Qed.
  Lemma p12_fill_ok : forall x, p12_fill x B = p12_stretch B x.
  Proof. intros x. unfold p12_fill, p12_stretch. rewrite round_up_ceil. apply p12_fill_spec. intros ->. unfold ceil_div. cbn [Nat.add]. rewrite Nat.div_small by lia. lia. Qed.
  Lemma stretch_len : forall x, length (p12_stretch B x) = (B * ceil_div (length x) B)%nat.
  Proof. intros. rewrite <- p12_fill_ok. unfold p12_fill. rewrite map_length, seq_length. apply round_up_ceil. Qed.
  Lemma p12_add_ok : forall n fuel I b1, length I = (B * n)%nat -> (length I <= fuel)%nat ->
    p12_add fuel B I b1 = concat (map (fun Ij => be_bytes B ((be_val Ij + b1) mod 256 ^ Z.of_nat B)) (blocks B I)).
  Proof.
    induction n as [|n IH]; intros fuel I b1 LI Lf.
    - assert (length I = 0%nat) by lia. apply length_zero_iff_nil in H. subst I. rewrite blocks_nil by auto. destruct fuel; reflexivity.
    - destruct fuel as [|fuel]; [nia|]. cbn [p12_add]. rewrite (proj2 (Nat.eqb_neq _ _)) by nia. rewrite blocks_cons by (auto; nia). cbn [map concat]. f_equal.
      + apply be_bytes_mod. rewrite Z.mod_mod by (apply Z.pow_nonzero; lia). reflexivity.
      + apply IH; rewrite skipn_length; nia.
  Qed.
  Lemma p12_i_len : forall c Dv I0 n i, length I0 = (B * n)%nat -> length (p12_i hash B c Dv I0 i) = (B * n)%nat.
  Proof.
    intros c Dv I0 n i L0. induction i as [|i IH]; cbn [p12_i]; [exact L0|]. set (I := p12_i hash B c Dv I0 i) in *. set (bb := be_val _). clearbody bb. clearbody I. clear L0 I0 i.
    revert I IH. induction n as [|n IHn]; intros I L.
    - assert (length I = 0%nat) by lia. apply length_zero_iff_nil in H. subst I. rewrite blocks_nil by auto. cbn. lia.
    - rewrite blocks_cons by (auto; nia). cbn [map concat]. rewrite app_length, be_bytes_length, IHn by (rewrite skipn_length; nia). lia.
  Qed.
  Lemma p12_loop_spec : forall fuel clock Dv I0 n0, length I0 = (B * n0)%nat -> length Dv = B -> Z.of_nat (D + B + B * n0) < limit ->
    forall blocks s i len timed it k, rep s [] -> (ceil_div len D <= blocks)%nat -> stops timed clock it k -> (1 <= it)%nat -> (k <= fuel)%nat ->
    forall I, (forall c, (it <= c)%nat -> (timed = false -> c = it) -> i <> 0%nat -> I = p12_i hash B c Dv I0 i) -> (i = 0%nat -> I = I0) -> (timed = true -> i = 0%nat) ->
    exists n, p12_loop o fuel blocks s Dv I len it timed clock =
      Some (n, firstn len (concat (map (p12_a hash B n Dv I0) (seq (S i) (ceil_div len D))))) /\ (it <= n <= k)%nat /\ (timed = false -> n = it).
  Proof.
    intros fuel clock Dv I0 n0 L0 LD Lim. induction blocks as [|b IH]; intros s i len timed it k R Hb Hk Hit Hf I HI HI0 Ht.
    - assert (len = 0%nat). { destruct (Nat.eq_dec len 0); auto. rewrite ceil_step in Hb by auto. lia. } subst len. exists it. destruct Hk. repeat split; auto; lia.
    - cbn [p12_loop]. destruct (Nat.eqb_spec len 0) as [->|N].
      { exists it. destruct Hk. repeat split; auto; lia. }
      assert (LI : length I = (B * n0)%nat).
      { destruct (Nat.eq_dec i 0) as [E0|E0]; [rewrite (HI0 E0); exact L0|]. rewrite (HI it); [apply p12_i_len; exact L0|lia|auto|exact E0]. }
      assert (EI : forall c, (it <= c)%nat -> (timed = false -> c = it) -> I = p12_i hash B c Dv I0 i).
      { intros c C1 C2. destruct (Nat.eq_dec i 0) as [E0|E0]; [rewrite (HI0 E0), E0; reflexivity|]. apply HI; auto. }
      destruct (ho_digest_spec s [] (Dv ++ I) R) as (s1 & -> & R1); [cbn [app]; rewrite app_length; lia|]. cbn [app].
      destruct (timed_loop_spec (T * list Z) (fun j '(h, b) => rep h [] /\ b = Nat.iter j hash (Dv ++ I)) (fun '(h, a) => ho_digest o h a) timed clock it)
        with (fuel := fuel) (k := k) (j := 1%nat) (x := (s1, hash (Dv ++ I))) as (n & [h a] & E & [E1 E1'] & E2 & E3 & E4).
      + intros j [h a] Hj [Hr ->]. destruct (ho_digest_spec h [] (Nat.iter j hash (Dv ++ I)) Hr) as (h1 & -> & Hr1).
        * cbn [app]. destruct j; [lia|]. cbn [Nat.iter nat_rect]. rewrite hash_len. lia.
        * eexists. split; [reflexivity|]. cbn beta iota. split; [exact Hr1|]. replace (j + 1)%nat with (S j) by lia. reflexivity.
      + exact Hk.
      + destruct Hk. lia.
      + destruct Hk. lia.
      + split; [exact R1|reflexivity].
      + rewrite E. subst a. set (a := Nat.iter n hash (Dv ++ I)).
        assert (La : length a = D) by (unfold a; destruct n; [lia|]; cbn [Nat.iter nat_rect]; apply hash_len).
        assert (Hn : timed = false -> n = it) by (intros X; rewrite E4 by exact X; lia).
        rewrite p12_fill_spec by lia.
        rewrite (p12_add_ok n0) by (auto; lia). rewrite La.
        assert (En : (if timed then n else it) = n) by (destruct timed; [reflexivity|symmetry; auto]). rewrite En.
        assert (E5 : I = p12_i hash B n Dv I0 i) by (apply EI; [lia|exact Hn]).
        destruct (IH h (S i) (len - Nat.min len D)%nat false n n E1) with (I := concat (map (fun Ij : list Z => be_bytes B ((be_val Ij + (be_val (cycle a B) + 1)) mod 256 ^ Z.of_nat B)) (Blocks.blocks B I)))
          as (n2 & F1 & F2 & F3).
        * rewrite ceil_step in Hb by auto. lia.
        * split; [lia|discriminate].
        * lia.
        * lia.
        * intros c C1 C2 _. rewrite (C2 eq_refl). cbn [p12_i]. rewrite <- E5. fold a. f_equal. apply map_ext. intros Ij. do 2 f_equal. lia.
        * lia.
        * discriminate.
        * rewrite F1. assert (n2 = n) by auto. subst n2. exists n. split; [|split; [lia|exact Hn]].
          assert (Ea : p12_a hash B n Dv I0 (S i) = a) by (unfold p12_a; replace (S i - 1)%nat with i by lia; rewrite <- E5; reflexivity).
          rewrite (blocks_step len D (S i) (p12_a hash B n Dv I0)) by (auto; rewrite Ea; exact La). rewrite Ea. reflexivity.
  Qed.
  Lemma pkcs12_ok : forall fuel s purpose secret salt iterations len timed clock k, rep s [] ->
    Z.of_nat (D + 3 * B + length secret + length salt) < limit -> stops timed clock (count iterations) k -> (k <= fuel)%nat ->
    exists n, pkcs12 o fuel s purpose secret salt iterations len timed clock = Some (KKey n (pkcs12_spec hash B D purpose secret salt n len)) /\
      (count iterations <= n <= k)%nat /\ (timed = false -> n = count iterations).
  Proof.
    intros fuel s purpose secret salt iterations len timed clock k R L Hk Hf. unfold pkcs12.
    assert (Ec : (if Nat.eqb iterations 0 then 1%nat else iterations) = count iterations) by (unfold count; destruct iterations; cbn [Nat.eqb]; lia). rewrite Ec.
    rewrite !p12_fill_ok. set (I0 := p12_stretch B salt ++ p12_stretch B secret).
    assert (L0 : length I0 = (B * (ceil_div (length salt) B + ceil_div (length secret) B))%nat) by (unfold I0; rewrite app_length, !stretch_len; lia).
    assert (Cb : forall n, (B * ceil_div n B <= n + B)%nat).
    { intros n. unfold ceil_div. pose proof (Nat.mul_div_le (n + B - 1) B HB). lia. }
    pose proof (ceil_le len D).
    destruct (p12_loop_spec fuel clock (repeat purpose B) I0 _ L0 (repeat_length _ _)) with (blocks := len) (s := s) (i := 0%nat) (len := len) (timed := timed) (it := count iterations) (k := k) (I := I0)
      as (n & E & E1 & E2); auto.
    - pose proof (Cb (length salt)). pose proof (Cb (length secret)). lia.
    - unfold count. lia.
    - rewrite E. exists n. split; [reflexivity|auto].
  Qed.
End Obj.
