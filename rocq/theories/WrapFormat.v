(** WrapFormat: the headers and tails of zlib and gzip against RFC 1950 and 1952. *)
From Coq Require Import ZArith List Bool Lia Arith.
From Verif Require Import DeflateModel DeflateSpec DeflateProofs.
From Verif Require Import Base BitioSpec ChecksumModel ChecksumSpec ChecksumProofs InflateSpec WrapModel WrapSpec WrapProofs.
Import ListNotations.
Open Scope nat_scope.

(** * Checksums *)
Lemma adler_of_spec : forall u data, (2 ^ 32 <= u)%Z -> bytes data -> adler_of u data = adler_spec data.
Proof.
  intros u data Hu Hd. unfold adler_of.
  rewrite (ad_final_spec _ data 4) by (try lia; apply (ad_update_spec u ad_reset [] data); auto; apply adrep_reset).
  cbn [snd]. apply firstn_all2. unfold adler_spec. rewrite be_bytes_length. lia.
Qed.
Lemma crc_of_spec : forall data, bytes data -> crc_of data = crc_spec POLY_CRC32 data.
Proof.
  intros data Hd. unfold crc_of, crc_final. cbn [Nat.ltb Nat.leb snd].
  rewrite (crc_update_spec POLY_CRC32 crc32_tab) by (auto; try apply crc32_tab_ok; unfold POLY_CRC32; lia).
  apply firstn_all2. unfold crc_spec. rewrite le_bytes_length. lia.
Qed.
Lemma adler_length : forall data, length (adler_spec data) = 4.
Proof. intros. apply be_bytes_length. Qed.
Lemma crc_length : forall data, length (crc_spec POLY_CRC32 data) = 4.
Proof. intros. apply le_bytes_length. Qed.

Lemma same_bytes_eq : forall a b, same_bytes a b = true <-> a = b.
Proof.
  induction a as [|x a IH]; intros [|y b]; cbn [same_bytes]; split; intros H; try discriminate; auto.
  - apply andb_prop in H as [H1 H2]. apply Z.eqb_eq in H1. apply IH in H2. congruence.
  - injection H as -> ->. rewrite Z.eqb_refl. apply IH. reflexivity.
Qed.

(** A bit of a flag byte. *)
Lemma land_bit : forall f k, (0 <= k)%Z -> (Z.land f (2 ^ k) =? 0)%Z = negb (Z.testbit f k).
Proof.
  intros f k Hk. destruct (Z.testbit f k) eqn:E; cbn [negb].
  - apply Z.eqb_neq. intros H. apply (f_equal (fun x => Z.testbit x k)) in H.
    rewrite Z.land_spec, Z.pow2_bits_true, E, Z.bits_0 in H by lia. discriminate.
  - apply Z.eqb_eq. apply Z.bits_inj'. intros n Hn. rewrite Z.land_spec, Z.bits_0.
    destruct (Z.eq_dec n k) as [->|N]; [rewrite E; reflexivity|]. rewrite Z.pow2_bits_false by lia. apply andb_false_r.
Qed.

(** * Parsers *)
Definition well {A} (f : parser A) : Prop :=
  (forall q a r e, f q = Some (a, r) -> f (q ++ e) = Some (a, r ++ e))
  /\ (forall q a r, f q = Some (a, r) -> exists p, q = p ++ r)
  /\ (forall q e a r, f (q ++ e) = Some (a, r) -> length (q ++ e) <= length q + length r -> exists r', f q = Some (a, r')).

Lemma well_ret : forall A (a : A), well (pret a).
Proof.
  intros A a. split; [|split].
  - intros q a' r e H. injection H as <- <-. reflexivity.
  - intros q a' r H. injection H as <- <-. exists []. reflexivity.
  - intros q e a' r H _. injection H as <- _. eexists. reflexivity.
Qed.
Lemma well_bind : forall A B (f : parser A) (g : A -> parser B), well f -> (forall a, well (g a)) -> well (pbind f g).
Proof.
  intros A B f g (F1 & F2 & F3) HG. unfold pbind. split; [|split].
  - intros q b r e H. destruct (f q) as [[a r1]|] eqn:E; [|discriminate]. rewrite (F1 _ _ _ e E). apply (HG a). exact H.
  - intros q b r H. destruct (f q) as [[a r1]|] eqn:E; [|discriminate]. destruct (F2 _ _ _ E) as (p1 & ->).
    destruct (proj1 (proj2 (HG a)) _ _ _ H) as (p2 & ->). exists (p1 ++ p2). apply app_assoc.
  - intros q e b r H L. destruct (f (q ++ e)) as [[a r1]|] eqn:E; [|discriminate].
    destruct (proj1 (proj2 (HG a)) _ _ _ H) as (p2 & E2).
    assert (L1 : length r1 = length p2 + length r) by (rewrite E2; apply app_length).
    destruct (F3 _ _ _ _ E ltac:(lia)) as (r' & E'). rewrite E'. pose proof (F1 _ _ _ e E') as E3. rewrite E in E3. injection E3 as ->.
    apply (proj2 (proj2 (HG a)) r' e b r H). rewrite app_length in *. lia.
Qed.
Lemma well_check : forall b, well (check b).
Proof. intros [|]; [apply (well_ret unit tt)|]. split; [|split]; intros; discriminate. Qed.
Lemma well_get1 : well get1.
Proof.
  split; [|split].
  - intros [|x q] a r e H; [discriminate|]. injection H as <- <-. reflexivity.
  - intros [|x q] a r H; [discriminate|]. injection H as <- <-. exists [x]. reflexivity.
  - intros [|x q] e a r H L.
    + cbn [app] in H, L. destruct e as [|y e]; [discriminate|]. injection H as <- <-. cbn in L. lia.
    + injection H as <- <-. eexists. reflexivity.
Qed.
Lemma well_take : forall n, well (take n).
Proof.
  intros n. unfold take. split; [|split].
  - intros q a r e H. destruct (Nat.ltb_spec (length q) n); [discriminate|]. injection H as <- <-.
    rewrite (proj2 (Nat.ltb_ge _ _)) by (rewrite app_length; lia). rewrite firstn_app, skipn_app.
    replace (n - length q) with 0 by lia. cbn [firstn skipn]. rewrite app_nil_r. reflexivity.
  - intros q a r H. destruct (Nat.ltb_spec (length q) n); [discriminate|]. injection H as <- <-. exists (firstn n q). symmetry. apply firstn_skipn.
  - intros q e a r H L. destruct (Nat.ltb_spec (length (q ++ e)) n); [discriminate|]. injection H as <- <-.
    rewrite skipn_length in L. rewrite app_length in *. rewrite (proj2 (Nat.ltb_ge _ _)) by lia.
    rewrite firstn_app. replace (n - length q) with 0 by lia. cbn [firstn]. rewrite app_nil_r. eexists. reflexivity.
Qed.
Lemma well_get_string : well get_string.
Proof.
  split; [|split].
  - induction q as [|x q IH]; intros a r e H; cbn [get_string] in H; [discriminate|]. cbn [app get_string].
    destruct (x =? 0)%Z; [injection H as <- <-; reflexivity|].
    destruct (get_string q) as [[l r1]|] eqn:E; [|discriminate]. injection H as <- <-. rewrite (IH _ _ e eq_refl). reflexivity.
  - induction q as [|x q IH]; intros a r H; cbn [get_string] in H; [discriminate|].
    destruct (x =? 0)%Z; [injection H as <- <-; exists [x]; reflexivity|].
    destruct (get_string q) as [[l r1]|] eqn:E; [|discriminate]. injection H as <- <-. destruct (IH _ _ eq_refl) as (p & ->). exists (x :: p). reflexivity.
  - induction q as [|x q IH]; intros e a r H L.
    + exfalso. cbn [app length] in H, L. assert (X : forall e a r, get_string e = Some (a, r) -> length r < length e).
      { clear. induction e as [|x e IH]; intros a r H; cbn [get_string] in H; [discriminate|].
        destruct (x =? 0)%Z; [injection H as <- <-; cbn; lia|].
        destruct (get_string e) as [[l r1]|] eqn:E; [|discriminate]. injection H as <- <-. specialize (IH _ _ eq_refl). cbn; lia. }
      specialize (X _ _ _ H). lia.
    + cbn [app get_string] in H |- *. destruct (x =? 0)%Z; [injection H as <- <-; eexists; reflexivity|].
      destruct (get_string (q ++ e)) as [[l r1]|] eqn:E; [|discriminate]. injection H as <- <-.
      destruct (IH _ _ _ E ltac:(cbn [length app] in L; lia)) as (r' & ->). eexists. reflexivity.
Qed.
Lemma well_when : forall b f, well f -> well (when b f).
Proof. intros [|] f H; [exact H|apply well_ret]. Qed.
Lemma well_fields : well gunzip_fields.
Proof.
  unfold gunzip_fields, skip_extra.
  repeat first [apply well_bind; [|intros ?] | apply well_get1 | apply well_check | apply well_take | apply well_when | apply well_get_string | apply well_ret].
Qed.

(** * Zlib *)
Lemma zlib_header_inv : forall q W m r, zlib_header q = Got (W, m, r) ->
  exists cmf flg, q = cmf :: flg :: r /\ ((cmf * 256 + flg) mod 31 = 0 /\ cmf mod 16 = 8 /\ Z.testbit flg 5 = false)%Z
    /\ m = 8 + Z.to_nat (cmf / 16) /\ W = 2 ^ m.
Proof.
  intros [|cmf [|flg q]] W m r H; try discriminate. cbn [zlib_header] in H.
  destruct ((cmf * 256 + flg) mod 31 =? 0)%Z eqn:E1; [|discriminate]. apply Z.eqb_eq in E1.
  destruct (Z.land cmf 15 =? 8)%Z eqn:E2; [|discriminate]. apply Z.eqb_eq in E2.
  change 32%Z with (2 ^ 5)%Z in H. rewrite land_bit in H by lia. destruct (Z.testbit flg 5) eqn:E3; [discriminate|].
  cbn [negb] in H. injection H as <- <- <-. exists cmf, flg. split; auto.
  change 15%Z with (Z.ones 4) in E2. rewrite Z.land_ones in E2 by lia. rewrite Z.shiftr_div_pow2 by lia. auto.
Qed.
Lemma zlib_header_ok : forall cmf flg r, ((cmf * 256 + flg) mod 31 = 0)%Z -> (cmf mod 16 = 8)%Z -> Z.testbit flg 5 = false ->
  zlib_header (cmf :: flg :: r) = Got (2 ^ (8 + Z.to_nat (cmf / 16)), 8 + Z.to_nat (cmf / 16), r).
Proof.
  intros cmf flg r H1 H2 H3. unfold zlib_header. rewrite H1. cbn [Z.eqb negb].
  change 15%Z with (Z.ones 4). rewrite Z.land_ones by lia. change (2 ^ 4)%Z with 16%Z. rewrite H2. cbn [Z.eqb Pos.eqb negb].
  change 32%Z with (2 ^ 5)%Z. rewrite land_bit by lia. rewrite H3. cbn [negb]. rewrite Z.shiftr_div_pow2 by lia. reflexivity.
Qed.

Lemma window_size : forall cmf, (0 <= cmf)%Z -> 2 ^ (8 + Z.to_nat (cmf / 16)) = Z.to_nat (2 ^ (cmf / 16 + 8)).
Proof.
  intros cmf H. assert (0 <= cmf / 16)%Z by (apply Z.div_pos; lia).
  rewrite Z2Nat.inj_pow by lia. change (Z.to_nat 2) with 2. f_equal. lia.
Qed.

Lemma zlib_tail_inv : forall u data q r, (2 ^ 32 <= u)%Z -> bytes data -> zlib_tail u data q = Got r -> q = adler_spec data ++ r.
Proof.
  intros u data q r Hu Hd H. unfold zlib_tail in H. destruct (Nat.ltb_spec (length q) 4); [discriminate|].
  rewrite adler_of_spec in H by auto. destruct (same_bytes (adler_spec data) (firstn 4 q)) eqn:E; [|discriminate].
  apply same_bytes_eq in E. injection H as <-. rewrite E. symmetry. apply firstn_skipn.
Qed.
Lemma zlib_tail_ok : forall u data r, (2 ^ 32 <= u)%Z -> bytes data -> zlib_tail u data (adler_spec data ++ r) = Got r.
Proof.
  intros u data r Hu Hd. unfold zlib_tail. rewrite adler_of_spec by auto.
  pose proof (adler_length data) as L. rewrite (proj2 (Nat.ltb_ge _ _)) by (rewrite app_length; lia).
  rewrite <- L at 1. rewrite firstn_app, Nat.sub_diag, firstn_all. cbn [firstn]. rewrite app_nil_r.
  rewrite (proj2 (same_bytes_eq _ _) eq_refl). rewrite <- L at 1. rewrite skipn_app, Nat.sub_diag, skipn_all. reflexivity.
Qed.

Section Zlib.
Variable u : Z.
Variable init : nat -> list Z.
Hypothesis Hu : (2 ^ 32 <= u)%Z.
Hypothesis Hinit : forall n, length (init n) = n.

Lemma zlib_spec : forall pieces last, Forall bytes pieces -> bytes last -> (16 <= hd 0 (concat pieces ++ last))%Z ->
  match zlib_decompress u init pieces last with
  | Got (data, rest, m) => (exists m0, m = Some m0 /\ stream_of nat zlib_header (zlib_tail u) 2 false (concat pieces ++ last) data rest m0)
      /\ (forall data' rest' m', stream_of nat zlib_header (zlib_tail u) 2 true (concat pieces ++ last) data' rest' m' -> data' = data /\ rest' = rest)
  | Refused _ => forall data rest m', ~ stream_of nat zlib_header (zlib_tail u) 2 true (concat pieces ++ last) data rest m'
  end.
Proof.
  intros pieces last HP HL H16. unfold zlib_decompress. apply decompress_spec; auto.
  - intros q W m r e H. destruct (zlib_header_inv _ _ _ _ H) as (cmf & flg & -> & _). exact H || (cbn [app zlib_header] in H |- *;
      destruct ((cmf * 256 + flg) mod 31 =? 0)%Z; [|discriminate]; destruct (Z.land cmf 15 =? 8)%Z; [|discriminate];
      destruct (Z.land flg 32 =? 0)%Z; [|discriminate]; cbn [negb] in H |- *; injection H as <- <-; reflexivity).
  - intros q W m r H. destruct (zlib_header_inv _ _ _ _ H) as (cmf & flg & -> & _). exists [cmf; flg]. reflexivity.
  - intros q e W m r H L. destruct (zlib_header_inv _ _ _ _ H) as (cmf & flg & E & (K1 & K2 & K3) & -> & ->).
    rewrite E in L. cbn [length] in L. destruct q as [|a [|b q]]; cbn [length] in L; try lia.
    injection E as -> -> E. exists q. apply zlib_header_ok; assumption.
  - intros d q r e H. unfold zlib_tail in *. destruct (Nat.ltb_spec (length q) 4); [discriminate|].
    rewrite (proj2 (Nat.ltb_ge _ _)) by (rewrite app_length; lia). rewrite firstn_app, skipn_app. replace (4 - length q) with 0 by lia.
    cbn [firstn]. rewrite app_nil_r. destruct (same_bytes _ _); [|discriminate]. injection H as <-. reflexivity.
  - intros d q e r H L. unfold zlib_tail in *. destruct (Nat.ltb_spec (length (q ++ e)) 4); [discriminate|].
    rewrite (proj2 (Nat.ltb_ge _ _)) by lia. rewrite firstn_app in H. replace (4 - length q) with 0 in H by lia.
    cbn [firstn] in H. rewrite app_nil_r in H. destruct (same_bytes _ _); [|discriminate]. eexists. reflexivity.
  - intros d q r H. unfold zlib_tail in H. destruct (Nat.ltb_spec (length q) 4); [discriminate|]. lia.
  - apply bytes_app. split; [|exact HL]. clear -HP. induction HP; cbn [concat]; [constructor|]. apply bytes_app. auto.
  - intros W m r H. destruct (zlib_header_inv _ _ _ _ H) as (cmf & flg & E & _ & -> & ->). rewrite E in H16. cbn [hd] in H16.
    assert (1 <= cmf / 16)%Z by (apply Z.div_le_lower_bound; lia).
    assert (2 ^ 9 <= 2 ^ (8 + Z.to_nat (cmf / 16))) by (apply Nat.pow_le_mono_r; lia). change (2 ^ 9) with 512 in *. lia.
Qed.

Lemma zlib_sound : forall pieces last data rest m, Forall bytes pieces -> bytes last -> (16 <= hd 0 (concat pieces ++ last))%Z ->
  zlib_decompress u init pieces last = Got (data, rest, m) -> zlib_stream false (concat pieces ++ last) data rest.
Proof.
  intros pieces last data rest m HP HL H16 H. pose proof (zlib_spec pieces last HP HL H16) as ZS. rewrite H in ZS.
  destruct ZS as [(m0 & _ & (W & r & tl & X1 & _ & X2 & X3 & X4)) _].
  destruct (zlib_header_inv _ _ _ _ X1) as (cmf & flg & E & K & -> & ->). rewrite E in H16. cbn [hd] in H16.
  exists cmf, flg, r. split; [exact E|]. split; [exact K|]. split; [discriminate|].
  assert (BD : bytes data) by (eapply inflates_bytes; [exact X3|constructor]).
  apply zlib_tail_inv in X4; auto. rewrite window_size in X3 by lia. rewrite <- X4. exact X3.
Qed.

Lemma zlib_complete : forall pieces last data rest, Forall bytes pieces -> bytes last -> bytes rest -> (16 <= hd 0 (concat pieces ++ last))%Z ->
  zlib_stream true (concat pieces ++ last) data rest -> exists m, zlib_decompress u init pieces last = Got (data, rest, m).
Proof.
  intros pieces last data rest HP HL HR H16 (cmf & flg & body & E & (K1 & K2 & K3) & _ & D).
  pose proof (zlib_spec pieces last HP HL H16) as ZS. rewrite E in H16. cbn [hd] in H16.
  assert (BD : bytes data) by (eapply inflates_bytes; [exact D|constructor]).
  assert (G : stream_of nat zlib_header (zlib_tail u) 2 true (concat pieces ++ last) data rest (8 + Z.to_nat (cmf / 16))).
  { exists (2 ^ (8 + Z.to_nat (cmf / 16))), body, (adler_spec data ++ rest). rewrite E. split; [apply zlib_header_ok; assumption|].
    split; [cbn [length]; lia|]. split; [apply bytes_app; split; [apply be_bytes_bytes|exact HR]|].
    split; [rewrite window_size by lia; exact D|]. apply zlib_tail_ok; assumption. }
  destruct (zlib_decompress u init pieces last) as [[[data' rest'] m]|err].
  - destruct ZS as [_ U]. destruct (U _ _ _ G) as [-> ->]. eauto.
  - destruct (ZS _ _ _ G).
Qed.
End Zlib.

(** * Gzip *)
Lemma bind_some : forall A B (f : parser A) (g : A -> parser B) q b r, pbind f g q = Some (b, r) ->
  exists a r1, f q = Some (a, r1) /\ g a r1 = Some (b, r).
Proof. intros A B f g q b r H. unfold pbind in H. destruct (f q) as [[a r1]|]; [eauto|discriminate]. Qed.
Lemma check_some : forall b q x r, check b q = Some (x, r) -> b = true /\ r = q.
Proof. intros [|] q x r H; [|discriminate]. injection H as _ <-. auto. Qed.
Lemma take_some : forall n q l r, take n q = Some (l, r) -> q = l ++ r /\ length l = n.
Proof.
  intros n q l r H. unfold take in H. destruct (Nat.ltb_spec (length q) n); [discriminate|]. injection H as <- <-.
  rewrite firstn_skipn, firstn_length. split; [reflexivity|lia].
Qed.
Lemma take_ok : forall n l r, length l = n -> take n (l ++ r) = Some (l, r).
Proof.
  intros n l r H. unfold take. rewrite (proj2 (Nat.ltb_ge _ _)) by (rewrite app_length; lia). subst n.
  rewrite firstn_app, skipn_app, Nat.sub_diag, firstn_all, skipn_all. cbn [firstn skipn app]. rewrite app_nil_r. reflexivity.
Qed.
Lemma string_some : forall q l r, get_string q = Some (l, r) -> ~ In 0%Z l /\ q = (l ++ [0%Z]) ++ r.
Proof.
  induction q as [|x q IH]; intros l r H; cbn [get_string] in H; [discriminate|].
  destruct (Z.eqb_spec x 0) as [->|N]; [injection H as <- <-; split; [intros []|reflexivity]|].
  destruct (get_string q) as [[l1 r1]|]; [|discriminate]. injection H as <- <-. destruct (IH _ _ eq_refl) as [I1 ->].
  split; [|reflexivity]. intros [I|I]; [congruence|auto].
Qed.
Lemma string_ok : forall l r, ~ In 0%Z l -> get_string ((l ++ [0%Z]) ++ r) = Some (l, r).
Proof.
  induction l as [|x l IH]; intros r H; cbn [app get_string]; [reflexivity|].
  destruct (Z.eqb_spec x 0) as [->|N]; [destruct H; left; reflexivity|]. rewrite IH by (intros I; apply H; right; exact I). reflexivity.
Qed.

Lemma flag_off : forall f, (Z.land f (Z.lor 32 2) =? 0)%Z = negb (Z.testbit f 1) && negb (Z.testbit f 5).
Proof.
  intros f. rewrite Z.land_lor_distr_r. change 32%Z with (2 ^ 5)%Z. change 2%Z with (2 ^ 1)%Z at 2.
  pose proof (land_bit f 5 ltac:(lia)) as H5. pose proof (land_bit f 1 ltac:(lia)) as H1. rewrite <- H5, <- H1.
  destruct (Z.eqb_spec (Z.land f (2 ^ 1)) 0) as [->|N1]; cbn [andb].
  - rewrite Z.lor_0_r. reflexivity.
  - apply Z.eqb_neq. intros X. apply Z.lor_eq_0_iff in X. tauto.
Qed.

Lemma when_string_some : forall b q l r, when b get_string q = Some (l, r) -> exists f, q = f ++ r /\ string_field b l f.
Proof.
  intros [|] q l r H; cbn [when] in H.
  - apply string_some in H as [H1 ->]. exists (l ++ [0%Z]). split; [reflexivity|]. split; auto.
  - injection H as <- <-. exists []. split; [reflexivity|]. split; reflexivity.
Qed.
Lemma when_string_ok : forall b l f r, string_field b l f -> when b get_string (f ++ r) = Some (l, r).
Proof. intros [|] l f r [H ->]; cbn [when]; [apply string_ok; exact H|subst l; reflexivity]. Qed.

Lemma extra_some : forall b q l r, bytes q -> when b skip_extra q = Some (l, r) -> exists f, q = f ++ r /\ extra_field b f.
Proof.
  intros [|] q l r HB H; cbn [when] in H.
  - apply bind_some in H as (len & r1 & H1 & H2). apply take_some in H1 as [-> L1]. apply take_some in H2 as [-> L2].
    apply bytes_app in HB as [B1 _]. pose proof (le_val_bounds len B1) as BD. rewrite L1 in BD. change (256 ^ Z.of_nat 2)%Z with 65536%Z in BD.
    exists (len ++ l). split; [rewrite <- app_assoc; reflexivity|]. exists l. split; [lia|]. f_equal.
    rewrite L2, Z2Nat.id by lia. rewrite <- L1. symmetry. apply le_bytes_val. exact B1.
  - injection H as <- <-. exists []. split; reflexivity.
Qed.
Lemma extra_ok : forall b f r, extra_field b f -> exists l, when b skip_extra (f ++ r) = Some (l, r).
Proof.
  intros [|] f r H; cbn [when].
  - destruct H as (x & L & ->). exists x. unfold skip_extra, pbind. rewrite <- app_assoc, take_ok by (apply le_bytes_length).
    apply take_ok. rewrite le_val_bytes_mod. change (256 ^ Z.of_nat 2)%Z with 65536%Z. rewrite Z.mod_small by lia. lia.
  - cbn [extra_field] in H. subst f. eexists. reflexivity.
Qed.

Definition header_bytes (comp : list Z) (m : meta) (r : list Z) : Prop :=
  exists flg xfl os ef nf cf, comp = [31; 139; 8; flg]%Z ++ le_bytes 4 (g_time m) ++ [xfl; os] ++ ef ++ nf ++ cf ++ r
    /\ (0 <= g_time m < 2 ^ 32)%Z
    /\ Z.testbit flg 1 = false /\ Z.testbit flg 5 = false
    /\ extra_field (Z.testbit flg 2) ef /\ string_field (Z.testbit flg 3) (g_name m) nf /\ string_field (Z.testbit flg 4) (g_comment m) cf.

Lemma fields_some : forall q m r, bytes q -> gunzip_fields q = Some (m, r) -> header_bytes q m r.
Proof.
  intros q m r HB H. unfold gunzip_fields in H.
  apply bind_some in H as (m1 & q1 & H1 & H). apply bind_some in H as (m2 & q2 & H2 & H).
  apply bind_some in H as (?u & q3 & H3 & H). apply bind_some in H as (b & q4 & H4 & H). apply bind_some in H as (?u & q5 & H5 & H).
  apply bind_some in H as (flags & q6 & H6 & H). apply bind_some in H as (?u & q7 & H7 & H). apply bind_some in H as (time & q8 & H8 & H).
  apply bind_some in H as (x & q9 & H9 & H). apply bind_some in H as (ex & q10 & H10 & H). apply bind_some in H as (name & q11 & H11 & H).
  apply bind_some in H as (comment & q12 & H12 & H). injection H as <- <-.
  apply check_some in H3 as [H3 ->]. apply check_some in H5 as [H5 ->]. apply check_some in H7 as [H7 ->].
  destruct q as [|? q]; [discriminate|]. injection H1 as -> ->. destruct q1 as [|? q1]; [discriminate|]. injection H2 as -> ->.
  destruct q2 as [|? q2]; [discriminate|]. injection H4 as -> ->. destruct q4 as [|? q4]; [discriminate|]. injection H6 as -> ->.
  apply andb_prop in H3 as [H3 H3']. apply Z.eqb_eq in H3, H3', H5. subst m1 m2 b. rewrite flag_off in H7.
  apply andb_prop in H7 as [H7 H7']. apply negb_true_iff in H7, H7'.
  apply take_some in H8 as [-> L8]. apply take_some in H9 as [-> L9].
  destruct x as [|xfl [|os [|? ?]]]; try discriminate.
  assert (HB' : bytes (time ++ [xfl; os] ++ q9)) by (do 4 apply Forall_inv_tail in HB; exact HB).
  apply bytes_app in HB' as [BT BQ]. apply bytes_app in BQ as [_ BQ].
  change 4%Z with (2 ^ 2)%Z in H10. change 8%Z with (2 ^ 3)%Z in H11. change 16%Z with (2 ^ 4)%Z in H12.
  rewrite land_bit, negb_involutive in H10, H11, H12 by lia.
  apply (extra_some _ _ _ _ BQ) in H10 as (ef & -> & E1). apply when_string_some in H11 as (nf & -> & E2). apply when_string_some in H12 as (cf & -> & E3).
  exists flags, xfl, os, ef, nf, cf. cbn [g_time g_name g_comment].
  pose proof (le_val_bounds time BT) as BD. rewrite L8 in BD. change (256 ^ Z.of_nat 4)%Z with (2 ^ 32)%Z in BD.
  split; [|auto 10]. rewrite <- L8, le_bytes_val by exact BT. reflexivity.
Qed.
Lemma fields_ok : forall q m r, header_bytes q m r -> gunzip_fields q = Some (m, r).
Proof.
  intros q [time name comment] r (flg & xfl & os & ef & nf & cf & -> & HT & F1 & F5 & E1 & E2 & E3). cbn [g_time g_name g_comment] in *.
  unfold gunzip_fields. cbn [app].
  assert (BO : forall A B (f : parser A) (g : A -> parser B) q a r1 b r2, f q = Some (a, r1) -> g a r1 = Some (b, r2) -> pbind f g q = Some (b, r2))
    by (intros A B f g q a r1 b r2 X Y; unfold pbind; rewrite X; exact Y).
  eapply BO; [reflexivity|]. eapply BO; [reflexivity|]. eapply BO; [reflexivity|]. eapply BO; [reflexivity|]. eapply BO; [reflexivity|].
  eapply BO; [reflexivity|]. eapply BO; [rewrite flag_off, F1, F5; reflexivity|].
  eapply BO; [apply take_ok, le_bytes_length|]. eapply BO; [apply (take_ok 2 [xfl; os]); reflexivity|].
  change 4%Z with (2 ^ 2)%Z at 1. change 8%Z with (2 ^ 3)%Z. change 16%Z with (2 ^ 4)%Z. rewrite !land_bit, !negb_involutive by lia.
  destruct (extra_ok _ ef (nf ++ cf ++ r) E1) as (l & EL). eapply BO; [exact EL|].
  eapply BO; [apply when_string_ok; exact E2|]. eapply BO; [apply when_string_ok; exact E3|].
  unfold pret. rewrite le_val_bytes_mod. change (256 ^ Z.of_nat 4)%Z with (2 ^ 32)%Z. rewrite Z.mod_small by exact HT. reflexivity.
Qed.

Lemma length_bytes : forall data : list Z, (0 <= Z.of_nat (length data) mod 2 ^ 32 < 2 ^ 32)%Z.
Proof. intros. apply Z.mod_pos_bound. lia. Qed.
Lemma gunzip_tail_inv : forall data q r, bytes data -> bytes q -> gunzip_tail data q = Got r ->
  q = crc_spec POLY_CRC32 data ++ le_bytes 4 (Z.of_nat (length data) mod 2 ^ 32) ++ r.
Proof.
  intros data q r Hd Hq H. unfold gunzip_tail in H. destruct (take 4 q) as [[crc q1]|] eqn:E1; [|discriminate].
  apply take_some in E1 as [-> L1]. rewrite crc_of_spec in H by exact Hd.
  destruct (same_bytes (crc_spec POLY_CRC32 data) crc) eqn:E; [|discriminate]. apply same_bytes_eq in E. subst crc. cbn [negb] in H.
  destruct (take 4 q1) as [[len q2]|] eqn:E2; [|discriminate]. apply take_some in E2 as [-> L2].
  destruct (Z.eqb_spec (le_val len) (Z.of_nat (length data) mod 2 ^ 32)) as [EL|]; [|discriminate]. injection H as <-.
  do 2 f_equal. rewrite <- EL, <- L2. symmetry. apply le_bytes_val. apply bytes_app in Hq as [_ Hq]. apply bytes_app in Hq as [Hq _]. exact Hq.
Qed.
Lemma gunzip_tail_ok : forall data r, bytes data ->
  gunzip_tail data (crc_spec POLY_CRC32 data ++ le_bytes 4 (Z.of_nat (length data) mod 2 ^ 32) ++ r) = Got r.
Proof.
  intros data r Hd. unfold gunzip_tail. rewrite take_ok by (apply crc_length). rewrite crc_of_spec by exact Hd.
  rewrite (proj2 (same_bytes_eq _ _) eq_refl). cbn [negb]. rewrite take_ok by (apply le_bytes_length).
  rewrite le_val_bytes_mod. change (256 ^ Z.of_nat 4)%Z with (2 ^ 32)%Z. rewrite Z.mod_mod by lia. rewrite Z.eqb_refl. reflexivity.
Qed.

Lemma got_inv : forall A B C (a a' : A) (b b' : B) (c c' : C), Got (a, b, c) = Got (a', b', c') -> a = a' /\ b = b' /\ c = c'.
Proof. intros A B C a a' b b' c c' H. injection H as -> -> ->. auto. Qed.

Section Gunzip.
Variable init : nat -> list Z.
Hypothesis Hinit : forall n, length (init n) = n.

Lemma gunzip_spec : forall pieces last, Forall bytes pieces -> bytes last ->
  match gunzip init pieces last with
  | Got (data, rest, m) => (exists m0, m = Some m0 /\ stream_of meta gunzip_header gunzip_tail 1024 false (concat pieces ++ last) data rest m0)
      /\ (forall data' rest' m', stream_of meta gunzip_header gunzip_tail 1024 true (concat pieces ++ last) data' rest' m' -> data' = data /\ rest' = rest)
  | Refused _ => forall data rest m', ~ stream_of meta gunzip_header gunzip_tail 1024 true (concat pieces ++ last) data rest m'
  end.
Proof.
  intros pieces last HP HL. destruct well_fields as (F1 & F2 & F3). unfold gunzip. apply decompress_spec; auto.
  - intros q W m r e H. unfold gunzip_header in *. destruct (gunzip_fields q) as [[m1 r1]|] eqn:E; [|discriminate].
    rewrite (F1 _ _ _ e E). apply got_inv in H as (<- & <- & <-). reflexivity.
  - intros q W m r H. unfold gunzip_header in H. destruct (gunzip_fields q) as [[m1 r1]|] eqn:E; [|discriminate]. apply got_inv in H as (<- & <- & <-). eapply F2, E.
  - intros q e W m r H L. unfold gunzip_header in *. destruct (gunzip_fields (q ++ e)) as [[m1 r1]|] eqn:E; [|discriminate].
    apply got_inv in H as (<- & <- & <-). destruct (F3 _ _ _ _ E L) as (r' & ->). eauto.
  - destruct (well_take 4) as (T1 & _). intros d q r e H. unfold gunzip_tail in *. destruct (take 4 q) as [[c q1]|] eqn:E1; [|discriminate].
    rewrite (T1 _ _ _ e E1). destruct (negb (same_bytes (crc_of d) c)); [discriminate|].
    destruct (take 4 q1) as [[l q2]|] eqn:E2; [|discriminate]. rewrite (T1 _ _ _ e E2).
    destruct (le_val l =? Z.of_nat (length d) mod 2 ^ 32)%Z; [|discriminate]. injection H as <-. reflexivity.
  - destruct (well_take 4) as (T1 & T2 & T3). intros d q e r H L. unfold gunzip_tail in *. destruct (take 4 (q ++ e)) as [[c q1]|] eqn:E1; [|discriminate].
    apply take_some in E1 as X1. destruct X1 as [X1 L1].
    destruct (T3 _ _ _ _ E1) as (r1 & E1'); [apply (f_equal (@length Z)) in X1; rewrite app_length in X1; rewrite app_length in *; lia|]. rewrite E1'.
    pose proof (T1 _ _ _ e E1') as X. rewrite E1 in X. injection X as ->.
    destruct (negb (same_bytes (crc_of d) c)); [discriminate|].
    destruct (take 4 (r1 ++ e)) as [[l q2]|] eqn:E2; [|discriminate].
    apply take_some in E1' as [Y1 _]. apply (f_equal (@length Z)) in Y1. rewrite app_length in Y1.
    apply take_some in E2 as X2. destruct X2 as [X2 L2].
    destruct (T3 _ _ _ _ E2) as (r2 & ->); [apply (f_equal (@length Z)) in X2; rewrite app_length in X2; rewrite app_length in *; lia|].
    destruct (le_val l =? Z.of_nat (length d) mod 2 ^ 32)%Z; [|discriminate]. eexists. reflexivity.
  - intros d q r H. unfold gunzip_tail in H. destruct (take 4 q) as [[c q1]|] eqn:E1; [|discriminate].
    apply take_some in E1 as [-> L1]. destruct (negb (same_bytes (crc_of d) c)); [discriminate|].
    destruct (take 4 q1) as [[l q2]|] eqn:E2; [|discriminate]. apply take_some in E2 as [-> L2]. rewrite !app_length. lia.
  - apply bytes_app. split; [|exact HL]. clear -HP. induction HP; cbn [concat]; [constructor|]. apply bytes_app. auto.
  - intros W m r H. unfold gunzip_header in H. destruct (gunzip_fields _) as [[m1 r1]|]; [|discriminate]. apply got_inv in H as (<- & _).
    assert (2 ^ 9 <= 2 ^ 15) by (apply Nat.pow_le_mono_r; lia). change (2 ^ 9) with 512 in *. lia.
Qed.

Lemma window_15 : 2 ^ 15 = Z.to_nat 32768.
Proof. change 32768%Z with (2 ^ 15)%Z. rewrite Z2Nat.inj_pow by lia. reflexivity. Qed.

Lemma gunzip_sound : forall pieces last data rest m, Forall bytes pieces -> bytes last ->
  gunzip init pieces last = Got (data, rest, m) ->
  exists m0 hdr body, m = Some m0 /\ concat pieces ++ last = hdr ++ body
    /\ gzip_header false hdr (g_time m0) (g_name m0) (g_comment m0) /\ gzip_body false body data rest.
Proof.
  intros pieces last data rest m HP HL H. pose proof (gunzip_spec pieces last HP HL) as ZS. rewrite H in ZS.
  destruct ZS as [(m0 & -> & (W & r & tl & X1 & _ & X2 & X3 & X4)) _].
  assert (BA : bytes (concat pieces ++ last)).
  { apply bytes_app. split; [|exact HL]. clear -HP. induction HP; cbn [concat]; [constructor|]. apply bytes_app. auto. }
  unfold gunzip_header in X1. destruct (gunzip_fields _) as [[m1 r1]|] eqn:E; [|discriminate]. apply got_inv in X1 as (<- & -> & ->).
  apply (fields_some _ _ _ BA) in E as (flg & xfl & os & ef & nf & cf & E & HT & F1 & F5 & E1 & E2 & E3).
  assert (BD : bytes data) by (eapply inflates_bytes; [exact X3|constructor]).
  apply gunzip_tail_inv in X4; auto. rewrite window_15 in X3. subst tl.
  exists m0, ([31; 139; 8; flg]%Z ++ le_bytes 4 (g_time m0) ++ [xfl; os] ++ ef ++ nf ++ cf), r. split; [reflexivity|].
  split; [rewrite E, <- !app_assoc; reflexivity|]. split; [|exact X3].
  exists flg, xfl, os, ef, nf, cf. split; [reflexivity|]. split; [exact HT|]. split; [exact F1|]. split; [exact F5|]. split; [discriminate|]. auto.
Qed.

Lemma gunzip_complete : forall pieces last hdr body time name comment data rest, Forall bytes pieces -> bytes last -> bytes rest ->
  concat pieces ++ last = hdr ++ body -> length hdr <= 1024 -> gzip_header true hdr time name comment -> gzip_body true body data rest ->
  gunzip init pieces last = Got (data, rest, Some (mkmeta time name comment)).
Proof.
  intros pieces last hdr body time name comment data rest HP HL HR E LH (flg & xfl & os & ef & nf & cf & EH & HT & F1 & F5 & _ & E1 & E2 & E3) D.
  pose proof (gunzip_spec pieces last HP HL) as ZS.
  assert (BD : bytes data) by (eapply inflates_bytes; [exact D|constructor]).
  assert (FO : gunzip_fields (concat pieces ++ last) = Some (mkmeta time name comment, body)).
  { apply fields_ok. exists flg, xfl, os, ef, nf, cf. rewrite E, EH, <- !app_assoc. auto 10. }
  assert (G : stream_of meta gunzip_header gunzip_tail 1024 true (concat pieces ++ last) data rest (mkmeta time name comment)).
  { exists (2 ^ 15), body, (crc_spec POLY_CRC32 data ++ le_bytes 4 (Z.of_nat (length data) mod 2 ^ 32) ++ rest).
    split; [unfold gunzip_header; rewrite FO; reflexivity|]. split; [intros _; rewrite E, app_length; lia|].
    split; [apply bytes_app; split; [apply le_bytes_bytes|]; apply bytes_app; split; [apply le_bytes_bytes|exact HR]|].
    split; [rewrite window_15; exact D|]. apply gunzip_tail_ok; assumption. }
  destruct (gunzip init pieces last) as [[[data' rest'] m]|err].
  - destruct ZS as [(m0 & -> & (W & r & tl & X1 & _)) U]. destruct (U _ _ _ G) as [-> ->].
    unfold gunzip_header in X1. rewrite FO in X1. apply got_inv in X1 as (<- & <- & <-). reflexivity.
  - destruct (ZS _ _ _ G).
Qed.
End Gunzip.

(** * The other direction *)
Lemma put_bytes_data : forall m, put_bytes m = message_data m.
Proof. induction m as [|[p|h|l] m IH]; cbn [put_bytes message_data]; congruence. Qed.
Lemma message_data_bytes : forall m, Forall request_ok m -> bytes (message_data m).
Proof.
  induction 1 as [|[p|h|l] m H _ IH]; cbn [message_data]; [constructor| |exact IH|exact IH]. apply bytes_app. split; [exact H|exact IH].
Qed.

(** Nothing is put out before the first piece that is not empty, the first flush
    or the end of the message. *)
Lemma nothing_before_header : forall D M m s s', d_blen s = 0 -> Forall (fun r => match r with RPut p => p = [] | RFlush _ => False | RLevel _ => True end) m ->
  requests D M s m = Some s' -> d_w s' = d_w s /\ d_blen s' = 0.
Proof.
  intros D M. induction m as [|r m IH]; intros s s' HB HF H; cbn [requests] in H.
  - injection H as <-. auto.
  - inversion HF as [|? ? F1 F2]; subst. destruct r as [p|h|l]; cbn [request_step] in H.
    + subst p. cbn [length put2_loop] in H. eapply IH; eassumption.
    + destruct F1.
    + destruct (set_level l s) as [s1|] eqn:E; [|discriminate]. destruct (IH s1 s') as [I1 I2]; auto.
      * unfold set_level in E. unfold end_block in E. rewrite HB in E. cbn [Nat.eqb andb negb] in E.
        repeat match type of E with context [if ?b then _ else _] => destruct b end; try discriminate;
        try (injection E as <-); auto.
        all: destruct (nth l configuration (0, 0, 0)) as [[g z] c]; injection E as <-; exact HB.
      * rewrite I1. split; [|exact I2]. unfold set_level in E. unfold end_block in E. rewrite HB in E. cbn [Nat.eqb andb negb] in E.
        repeat match type of E with context [if ?b then _ else _] => destruct b end; try discriminate;
        try (injection E as <-); auto.
        all: destruct (nth l configuration (0, 0, 0)) as [[g z] c]; injection E as <-; reflexivity.
Qed.

Lemma prefix_facts : forall k level, 9 <= k <= 15 -> exists cmf flg, zlib_prefix k level = [cmf; flg]
  /\ byte cmf /\ byte flg /\ ((cmf * 256 + flg) mod 31 = 0)%Z /\ (cmf mod 16 = 8)%Z /\ Z.testbit flg 5 = false
  /\ (cmf / 16 = Z.of_nat k - 8)%Z.
Proof.
  intros k level Hk. unfold zlib_prefix.
  assert (HC : In (compression_level level) [0; 1; 2; 3]%Z).
  { unfold compression_level. do 10 (destruct level as [|level]; [cbn; auto 6|]). destruct level; cbn; auto. }
  assert (HK : In k (seq 9 7)) by (apply in_seq; lia). revert HC. generalize (compression_level level). intros c HC.
  cbn [In seq] in HC, HK.
  repeat destruct HK as [HK|HK]; try contradiction; subst k; repeat destruct HC as [HC|HC]; try contradiction; subst c;
    eexists _, _; (split; [vm_compute; reflexivity|]); unfold byte; vm_compute; repeat split; discriminate.
Qed.

Lemma zlib_messages_shape : forall u k P ms s outs, messages (2 ^ k) s ms = Some outs -> Forall2 P ms outs ->
  exists zs, zlib_messages u k s ms = Some zs
    /\ Forall2 (fun m z => exists level o, P m o /\ z = zlib_prefix k level ++ o ++ adler_of u (put_bytes m)) ms zs.
Proof.
  intros u k P. induction ms as [|m ms IH]; intros s outs H F; cbn [messages zlib_messages] in *.
  - eexists. split; [reflexivity|constructor].
  - unfold zlib_message. destruct (message (2 ^ k) s m) as [[s1 o]|]; [|discriminate].
    destruct (messages (2 ^ k) s1 ms) as [os|] eqn:E; [|discriminate]. injection H as <-. inversion F as [|? ? ? ? F1 F2]; subst.
    destruct (IH _ _ E F2) as (zs & -> & FZ). eexists. split; [reflexivity|]. constructor; [|exact FZ]. eauto.
Qed.

Lemma gzip_messages_shape : forall os k P ms s g outs, messages (2 ^ k) s (map snd ms) = Some outs -> Forall2 P (map snd ms) outs ->
  (match ms with [] => True | _ => g = gzip_new end) ->
  exists zs, gzip_messages os k g s ms = Some zs
    /\ Forall2 (fun xm z => exists level o, P (snd xm) o /\ z = gzip_prefix os (apply_settings (fst xm) gzip_new) level ++ o ++ gzip_suffix (put_bytes (snd xm))) ms zs.
Proof.
  intros os k P. induction ms as [|[x m] ms IH]; intros s g outs H F HG; cbn [messages gzip_messages map snd] in *.
  - eexists. split; [reflexivity|constructor].
  - subst g. unfold gzip_message. destruct (message (2 ^ k) s m) as [[s1 o]|]; [|discriminate].
    destruct (messages (2 ^ k) s1 (map snd ms)) as [os'|] eqn:E; [|discriminate]. injection H as <-. inversion F as [|? ? ? ? F1 F2]; subst.
    destruct (IH s1 (mkmeta 0 [] []) _ E F2) as (zs & -> & FZ); [destruct ms; [exact I|reflexivity]|].
    eexists. split; [reflexivity|]. constructor; [|exact FZ]. cbn [fst snd]. eauto.
Qed.

Lemma zlib_message_stream : forall u k level o m rest, (2 ^ 32 <= u)%Z -> 9 <= k <= 15 -> Forall request_ok m ->
  (forall rest, deflated true (2 ^ k) (o ++ rest) (message_data m) rest) ->
  zlib_stream true ((zlib_prefix k level ++ o ++ adler_of u (put_bytes m)) ++ rest) (message_data m) rest.
Proof.
  intros u k level o m rest Hu Hk HM HD. destruct (prefix_facts k level Hk) as (cmf & flg & -> & _ & _ & K1 & K2 & K3 & K4).
  rewrite put_bytes_data, adler_of_spec by (auto using message_data_bytes).
  exists cmf, flg, (o ++ adler_spec (message_data m) ++ rest). split; [cbn [app]; rewrite <- !app_assoc; reflexivity|].
  split; [auto|]. split; [intros _; lia|]. rewrite K4. replace (Z.to_nat (2 ^ (Z.of_nat k - 8 + 8))) with (2 ^ k); [apply HD|].
  replace (Z.of_nat k - 8 + 8)%Z with (Z.of_nat k) by lia. rewrite Z2Nat.inj_pow by lia. rewrite Nat2Z.id. reflexivity.
Qed.

Lemma gzip_message_member : forall os g level o m rest, (0 <= g_time g < 2 ^ 32)%Z -> ~ In 0%Z (g_name g) -> ~ In 0%Z (g_comment g) -> Forall request_ok m ->
  (forall rest, deflated true (2 ^ 15) (o ++ rest) (message_data m) rest) ->
  gzip_header true (gzip_prefix os g level) (g_time g) (g_name g) (g_comment g)
  /\ gzip_body true ((o ++ gzip_suffix (put_bytes m)) ++ rest) (message_data m) rest.
Proof.
  intros os [t n c] level o m rest HT HN HC HM HD. cbn [g_time g_name g_comment] in *. split.
  - unfold gzip_prefix. cbn [g_time g_name g_comment].
    eexists _, _, _, [], (if negb (length n =? 0) then n ++ [0%Z] else []), (if negb (length c =? 0) then c ++ [0%Z] else []).
    split; [cbn [app]; reflexivity|]. split; [exact HT|].
    assert (SF : forall b v, b = negb (length v =? 0) -> ~ In 0%Z v -> string_field b v (if negb (length v =? 0) then v ++ [0%Z] else [])).
    { intros b v -> HV. destruct v; cbn; auto. }
    split; [destruct n, c; reflexivity|]. split; [destruct n, c; reflexivity|]. split; [intros _; destruct n, c; split; reflexivity|].
    split; [destruct n, c; reflexivity|]. split; [apply SF; [destruct n, c; reflexivity|exact HN]|].
    apply SF; [destruct n, c; reflexivity|exact HC].
  - unfold gzip_body, gzip_suffix. rewrite put_bytes_data, crc_of_spec by (auto using message_data_bytes). rewrite <- window_15, <- !app_assoc. apply HD.
Qed.
Lemma gzip_prefix_length : forall os g level, length (gzip_prefix os g level)
  = 10 + (if length (g_name g) =? 0 then 0 else S (length (g_name g))) + (if length (g_comment g) =? 0 then 0 else S (length (g_comment g))).
Proof.
  intros os [t n c] level. unfold gzip_prefix. cbn [g_time g_name g_comment]. rewrite !app_length, le_bytes_length.
  cbn [length]. destruct n, c; cbn [length Nat.eqb negb]; rewrite ?app_length; cbn [length]; lia.
Qed.
Lemma gzip_prefix_bytes : forall os g level, byte os -> bytes (g_name g) -> bytes (g_comment g) -> bytes (gzip_prefix os g level).
Proof.
  intros os [t n c] level HO HN HC. cbn [g_name g_comment] in *. unfold gzip_prefix. cbn [g_time g_name g_comment].
  assert (Z0 : byte 0%Z) by (unfold byte; lia).
  repeat (apply bytes_app; split); try apply le_bytes_bytes.
  - repeat constructor; try (unfold byte; lia). all: destruct n, c; cbn; unfold byte; lia.
  - repeat constructor; try exact HO. all: destruct (level =? 1), (level =? 9); unfold byte in *; lia.
  - destruct (negb (length n =? 0)); [|constructor]. apply bytes_app. split; [exact HN|]. repeat constructor; apply Z0.
  - destruct (negb (length c =? 0)); [|constructor]. apply bytes_app. split; [exact HC|]. repeat constructor; apply Z0.
Qed.
