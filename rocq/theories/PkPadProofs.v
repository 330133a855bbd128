(** Proofs about the padding schemes. *)
From Coq Require Import ZArith List Bool Arith Lia.
From Verif Require Import Base AsnModel IntegerModel NbSpec RngModel RngSpec RngProofs PkPadModel PkPadSpec.
Import ListNotations.
Local Open Scope Z_scope.

Lemma blen_app a b : blen (a ++ b) = blen a + blen b.
Proof. unfold blen. rewrite app_length. lia. Qed.
Lemma blen_cons a b : blen (a :: b) = 1 + blen b.
Proof. unfold blen. cbn [length]. lia. Qed.
Lemma blen_nonneg a : 0 <= blen a.
Proof. unfold blen. lia. Qed.
Lemma blen_repeat (b : Z) n : blen (repeat b n) = Z.of_nat n.
Proof. unfold blen. rewrite repeat_length. reflexivity. Qed.
Lemma blen_zero a : blen a = 0 -> a = [].
Proof. destruct a; unfold blen; cbn [length]; intros; [auto|lia]. Qed.
Lemma blen_one a : blen a = 1 -> exists x, a = [x].
Proof. destruct a as [|x [|y a]]; unfold blen; cbn [length]; intros; try lia. eauto. Qed.
Lemma rd_app a x b off n : off = blen a -> n = blen x -> rd (a ++ x ++ b) off n = ROk x.
Proof.
  intros -> ->. unfold rd. rewrite !blen_app. pose proof (blen_nonneg a). pose proof (blen_nonneg x). pose proof (blen_nonneg b). destruct (Z.leb_spec 0 (blen a)), (Z.leb_spec 0 (blen x)), (Z.leb_spec (blen a + blen x) (blen a + (blen x + blen b))); try lia. cbn [andb].
  unfold blen. rewrite !Nat2Z.id. rewrite skipn_app, skipn_all, Nat.sub_diag. cbn [skipn app]. rewrite firstn_app, firstn_all, Nat.sub_diag. cbn [firstn]. rewrite app_nil_r. reflexivity.
Qed.
Lemma rd_end a x off n : off = blen a -> n = blen x -> rd (a ++ x) off n = ROk x.
Proof. intros A B. rewrite <- (app_nil_r x) at 1. apply rd_app; auto. Qed.
Lemma rd_start x b n : n = blen x -> rd (x ++ b) 0 n = ROk x.
Proof. intros A. apply (rd_app [] x b); auto. Qed.
Lemma rd_all x n : n = blen x -> rd x 0 n = ROk x.
Proof. intros A. rewrite <- (app_nil_r x) at 1. apply (rd_app [] x []); auto. Qed.
Lemma rd1_app a x b off : off = blen a -> rd1 (a ++ x :: b) off = ROk x.
Proof. intros A. unfold rd1. rewrite (rd_app a [x] b) by auto. reflexivity. Qed.
Lemma wr_app a x b l off : off = blen a -> blen l = blen x -> wr (a ++ x ++ b) off l = ROk (a ++ l ++ b).
Proof.
  intros -> E. unfold wr. rewrite !blen_app. pose proof (blen_nonneg a). pose proof (blen_nonneg x). pose proof (blen_nonneg b). rewrite E. destruct (Z.leb_spec 0 (blen a)), (Z.leb_spec (blen a + blen x) (blen a + (blen x + blen b))); try lia. cbn [andb].
  unfold blen. rewrite <- Nat2Z.inj_add, !Nat2Z.id. rewrite firstn_app, firstn_all, Nat.sub_diag. cbn [firstn]. rewrite app_nil_r. f_equal. f_equal. f_equal. rewrite app_assoc. rewrite <- app_length. rewrite skipn_app, skipn_all, Nat.sub_diag. reflexivity.
Qed.
Lemma wr_end a x l off : off = blen a -> blen l = blen x -> wr (a ++ x) off l = ROk (a ++ l).
Proof. intros A B. rewrite <- (app_nil_r x), <- (app_nil_r l) at 1. rewrite (wr_app a x [] (l ++ [])) by (rewrite ?app_nil_r; auto). rewrite !app_nil_r. reflexivity. Qed.
Lemma wr_start x b l : blen l = blen x -> wr (x ++ b) 0 l = ROk (l ++ b).
Proof. intros A. apply (wr_app [] x b l); auto. Qed.
Lemma split_at (l : list Z) n : 0 <= n <= blen l -> exists a b, l = a ++ b /\ blen a = n /\ blen b = blen l - n.
Proof.
  intros R. exists (firstn (Z.to_nat n) l), (skipn (Z.to_nat n) l). unfold blen in *. rewrite firstn_skipn, firstn_length, skipn_length. split; auto. lia.
Qed.
Lemma fill_app a x b v off n : off = blen a -> n = blen x -> fill (a ++ x ++ b) off v n = ROk (a ++ repeat v (Z.to_nat n) ++ b).
Proof. intros A ->. unfold fill. pose proof (blen_nonneg x). destruct (Z.leb_spec 0 (blen x)); [|lia]. apply wr_app; auto. rewrite blen_repeat. lia. Qed.
Lemma xr_app a x b l off : off = blen a -> blen l = blen x -> xr (a ++ x ++ b) off l = ROk (a ++ xorl x l ++ b).
Proof.
  intros A B. unfold xr. rewrite (rd_app a x b) by auto. cbn [rbind]. apply wr_app; auto. unfold blen in *. rewrite xorl_length. lia.
Qed.
Lemma lead_bytes bits : 0 <= bits -> block_bytes bits = lead bits + bits / 8 /\ 0 <= lead bits <= 1.
Proof.
  intros P. unfold block_bytes, lead. pose proof (Z.div_mod bits 8 ltac:(lia)) as D. pose proof (Z.mod_pos_bound bits 8 ltac:(lia)) as M. set (q := bits / 8) in *. set (r := bits mod 8) in *. clearbody q r. subst bits. destruct (Z.eqb_spec r 0); split; try lia.
  - symmetry. apply Z.div_unique with 7; lia.
  - symmetry. apply Z.div_unique with (r - 1); lia.
Qed.
Lemma framed_lead bits x : blen (framed bits x) = lead bits + blen x.
Proof. unfold framed, lead. destruct (bits mod 8 =? 0); cbn [app]; rewrite ?blen_cons; lia. Qed.

Lemma app_inj_pivot_len {A} (a b c d : list A) : a ++ b = c ++ d -> length a = length c -> a = c /\ b = d.
Proof. revert c. induction a as [|x a IH]; intros [|y c] E L; cbn in *; try lia; auto. injection E as -> E. destruct (IH c E ltac:(lia)) as (-> & ->). auto. Qed.
(** Pad and Unpad begin the same way. *)
Lemma start_wr bits buf : 0 <= bits -> blen buf = block_bytes bits ->
  exists b0 rest, (if bits mod 8 =? 0 then ROk buf else wr buf 0 [0]) = ROk (b0 ++ rest) /\ b0 = framed bits [] /\ blen b0 = lead bits /\ blen rest = bits / 8.
Proof.
  intros P L. destruct (lead_bytes bits P) as (B & R). unfold framed, lead in *. destruct (bits mod 8 =? 0).
  - exists [], buf. cbn [app]. repeat split; auto. lia.
  - destruct (split_at buf 1 ltac:(pose proof (Z.div_pos bits 8); lia)) as (a & b & -> & La & Lb). exists [0], b. split; [apply (wr_app [] a b [0]); auto|]. split; auto. split; [reflexivity|]. rewrite blen_app in *. lia.
Qed.
Lemma start_rd bits block : 0 <= bits -> blen block = block_bytes bits ->
  exists b0 rest, block = b0 ++ rest /\ blen b0 = lead bits /\ blen rest = bits / 8 /\
  (if bits mod 8 =? 0 then ROk false else rbind (rd1 block 0) (fun b => ROk (negb (b =? 0)))) = ROk (negb (list_eqb b0 (framed bits []))).
Proof.
  intros P L. destruct (lead_bytes bits P) as (B & R). unfold framed, lead in *. destruct (bits mod 8 =? 0).
  - exists [], block. cbn [app]. repeat split; auto. lia.
  - destruct (split_at block 1 ltac:(pose proof (Z.div_pos bits 8); lia)) as (a & b & -> & La & Lb). rewrite blen_app in *. destruct (blen_one a La) as (x & ->).
    exists [x], b. cbn [app]. repeat split; auto; [lia|]. rewrite (rd1_app [] x b) by reflexivity. cbn [rbind app list_eqb]. rewrite andb_true_r. reflexivity.
Qed.

(* ------------------------------------------------------------------ PKCS #1 v1.5 *)
Lemma pkcs_random_spec n : forall a x b words i, blen x = Z.of_nat n -> i = blen a -> words32 words ->
  (pkcs_random n (a ++ x ++ b) i words = RStuck /\ (usable words < n)%nat) \/
  exists ps rest, pkcs_random n (a ++ x ++ b) i words = ROk (a ++ ps ++ b, rest) /\ non_zero_bytes ps /\ blen ps = Z.of_nat n /\ words32 rest.
Proof.
  induction n as [|n IH]; intros a x b words i Lx Li F.
  - right. destruct x; [|rewrite blen_cons in Lx; pose proof (blen_nonneg x); lia]. exists [], words. repeat split; auto. constructor.
  - cbn [pkcs_random]. destruct x as [|x0 x]; [unfold blen in Lx; cbn in Lx; lia|]. rewrite blen_cons in Lx. assert (LB : forall v, low_bits (255 - 1) v = v mod 256) by reflexivity.
    destruct (word32_exact 1 255 words ltac:(lia) ltac:(lia) F) as [(E & G)|(rej & v & rest & W & G & C & E)]; rewrite E; cbn [rbind fst snd].
    + left. split; auto. unfold usable. enough (Z : filter (fun v => negb (v mod 256 =? 255)) words = []) by (rewrite Z; cbn; lia). clear - G F LB. induction F as [|v t V F IH]; auto. inversion G as [|? ? G1 G2]; subst. rewrite LB in G1. cbn [filter]. pose proof (Z.mod_pos_bound v 256 ltac:(lia)). destruct (Z.eqb_spec (v mod 256) 255); [|lia]. cbn [negb]. apply IH; auto.
    + rewrite LB in *. pose proof (Z.mod_pos_bound v 256 ltac:(lia)) as M. rewrite (Z.mod_small (1 + v mod 256)) by lia. change (a ++ (x0 :: x) ++ b) with (a ++ [x0] ++ (x ++ b)). rewrite (wr_app a [x0] (x ++ b) [1 + v mod 256]) by auto. cbn [rbind].
      assert (F2 : words32 rest) by (subst words; apply Forall_app in F as (_ & F); inversion F; auto).
      assert (N : (usable words <= S (usable rest))%nat).
      { subst words. unfold usable. rewrite filter_app, app_length. enough (Q : filter (fun v => negb (v mod 256 =? 255)) rej = []) by (rewrite Q; cbn [filter]; destruct (negb (v mod 256 =? 255)); cbn [length]; lia). clear - G LB. induction G as [|u t U G IH]; auto. rewrite LB in U. cbn [filter]. pose proof (Z.mod_pos_bound u 256 ltac:(lia)). destruct (Z.eqb_spec (u mod 256) 255); [|lia]. cbn [negb]. auto. }
      replace (a ++ [1 + v mod 256] ++ x ++ b) with ((a ++ [1 + v mod 256]) ++ x ++ b) by (rewrite <- app_assoc; reflexivity).
      destruct (IH (a ++ [1 + v mod 256]) x b rest (i + 1) ltac:(lia) ltac:(rewrite blen_app; subst i; reflexivity) F2) as [(E2 & C2)|(ps & rest2 & E2 & NZ & L2 & F3)]; rewrite E2.
      * left. split; auto. lia.
      * right. exists ((1 + v mod 256) :: ps), rest2. repeat split; auto; [rewrite <- app_assoc; reflexivity|constructor; auto; lia|rewrite blen_cons; lia].
Qed.
Theorem pkcs_pad_spec words m bits buf : 0 <= bits -> blen m <= pkcs_max bits -> 2 <= bits / 8 -> blen buf = block_bytes bits -> words32 words ->
  (pkcs_pad words m bits buf = RStuck /\ Z.of_nat (usable words) < bits / 8 - blen m - 2) \/
  exists ps rest, pkcs_pad words m bits buf = ROk (pkcs_block bits ps m, rest) /\ non_zero_bytes ps /\ ((8 <= length ps)%nat \/ m = []) /\ blen (pkcs_block bits ps m) = block_bytes bits.
Proof.
  intros P Lm N Lb F. unfold pkcs_pad, pkcs_max, sat_sub in *. pose proof (blen_nonneg m) as Pm. destruct (lead_bytes bits P) as (B & R). destruct (start_wr bits buf P Lb) as (b0 & rest & -> & Hb0 & L0 & Lr). cbn [rbind].
  assert (Lm' : blen m <= bits / 8 - 2 /\ (blen m = 0 \/ blen m <= bits / 8 - 10)) by (rewrite Z.gtb_ltb in Lm; destruct (Z.ltb_spec 10 (bits / 8)); lia). clear Lm. set (n := bits / 8) in *. clearbody n.
  destruct (split_at rest 1 ltac:(lia)) as (c & rest1 & -> & Lc & L1). rewrite (wr_app b0 c rest1 [2]) by (auto; rewrite Lc; reflexivity). cbn [rbind].
  destruct (Z.ltb_spec (n - blen m - 1) 0); [lia|]. rewrite blen_app in Lr. destruct (split_at rest1 (n - blen m - 2) ltac:(lia)) as (x & rest2 & -> & Lx & L2). rewrite blen_app in *.
  destruct (split_at rest2 1 ltac:(lia)) as (s & mm & -> & Ls & L3). rewrite blen_app in *.
  replace (b0 ++ [2] ++ x ++ s ++ mm) with ((b0 ++ [2]) ++ x ++ (s ++ mm)) by (rewrite <- app_assoc; reflexivity).
  destruct (pkcs_random_spec (Z.to_nat (n - blen m - 2)) (b0 ++ [2]) x (s ++ mm) words (lead bits + 1) ltac:(lia) ltac:(rewrite blen_app, L0; reflexivity) F) as [(E & C)|(ps & rest & E & NZ & Lps & _)]; rewrite E; cbn [rbind fst snd].
  - left. split; auto. lia.
  - right. exists ps, rest. replace ((b0 ++ [2]) ++ ps ++ s ++ mm) with ((b0 ++ [2] ++ ps) ++ s ++ mm) by (rewrite <- !app_assoc; reflexivity).
    assert (LA : blen (b0 ++ [2] ++ ps) = lead bits + n - blen m - 1) by (rewrite !blen_app, L0, Lps; change (blen [2]) with 1; lia). rewrite (wr_app _ s mm [0]) by (auto; rewrite Ls; reflexivity). cbn [rbind].
    replace ((b0 ++ [2] ++ ps) ++ [0] ++ mm) with ((b0 ++ [2] ++ ps ++ [0]) ++ mm) by (rewrite <- !app_assoc; reflexivity). rewrite (wr_end _ mm m) by (rewrite ?blen_app in *; change (blen [0]) with 1; change (blen [2]) with 1 in *; lia). cbn [rbind].
    assert (PB : pkcs_block bits ps m = (b0 ++ [2] ++ ps ++ [0]) ++ m) by (unfold pkcs_block, framed; subst b0; unfold framed; rewrite app_nil_r, <- !app_assoc; reflexivity). rewrite PB. split; auto. split; auto. split; [change (blen ps) with (Z.of_nat (length ps)) in Lps; destruct Lm' as (_ & [Z|Z]); [right; apply blen_zero; auto|left; lia]|]. rewrite !blen_app in *. change (blen [0]) with 1. change (blen [2]) with 1 in *. lia.
Qed.

Lemma pkcs_skip_spec l : bytes l -> forall i, (exists ps m, l = ps ++ 0 :: m /\ non_zero_bytes ps /\ pkcs_skip l i = i + blen ps + 1) \/ (non_zero_bytes l /\ pkcs_skip l i = i + blen l).
Proof.
  induction 1 as [|b l Hb Hl IH]; intros i; cbn [pkcs_skip].
  - right. split; [constructor|]. unfold blen. cbn. lia.
  - unfold byte in Hb. destruct (Z.eqb_spec b 0) as [->|N].
    + left. exists [], l. split; auto. split; [constructor|]. unfold blen; cbn; lia.
    + destruct (IH (i + 1)) as [(ps & m & -> & NZ & E)|(NZ & E)]; rewrite E, blen_cons.
      * left. exists (b :: ps), m. split; auto. split; [constructor; auto; lia|]. rewrite blen_cons. lia.
      * right. split; [constructor; auto; lia|]. lia.
Qed.
Lemma split_unique ps m ps' m' : non_zero_bytes ps -> non_zero_bytes ps' -> ps ++ 0 :: m = ps' ++ 0 :: m' -> ps = ps' /\ m = m'.
Proof.
  intros A. revert ps'. induction A as [|b ps Hb A IH]; intros [|b' ps'] B E; cbn [app] in E.
  - injection E as ->. auto.
  - injection E as <- _. inversion B; subst. lia.
  - injection E as -> _. lia.
  - injection E as <- E. inversion B; subst. destruct (IH ps' H2 E) as (-> & ->). auto.
Qed.
Lemma split_none ps l m : non_zero_bytes l -> l <> ps ++ 0 :: m.
Proof. intros A ->. apply Forall_app in A as (_ & A). inversion A. lia. Qed.
Theorem pkcs_unpad_exact block bits m : 8 <= bits -> blen block = block_bytes bits -> bytes block ->
  (exists r, pkcs_unpad block bits = ROk r) /\
  (pkcs_unpad block bits = ROk (Some m) <->
   (exists ps, block = pkcs_block bits ps m /\ non_zero_bytes ps /\ ((8 <= length ps)%nat \/ m = [])) \/ (exists ps, block = framed bits (2 :: ps) /\ non_zero_bytes ps /\ m = [])).
Proof.
  intros P Lb Hb. unfold pkcs_unpad. destruct (lead_bytes bits ltac:(lia)) as (B & R). assert (N1 : 1 <= bits / 8) by (apply Z.div_le_lower_bound; lia). destruct (start_rd bits block ltac:(lia) Lb) as (b0 & rest & -> & L0 & Lr & ->). cbn [rbind].
  unfold pkcs_max, sat_sub. set (n := bits / 8) in *. destruct rest as [|t l]; [unfold blen in Lr; cbn in Lr; lia|]. rewrite blen_cons in Lr. rewrite (rd1_app b0 t l) by auto. cbn [rbind].
  replace (b0 ++ t :: l) with ((b0 ++ [t]) ++ l) by (rewrite <- app_assoc; reflexivity). rewrite (rd_end (b0 ++ [t]) l) by (rewrite ?blen_app, ?L0; change (blen [t]) with 1; lia). cbn [rbind].
  apply Forall_app in Hb as (_ & Hb). inversion Hb as [|? ? _ Hl]; subst. rewrite Z.gtb_ltb.
  assert (FR : forall x y, b0 ++ x = framed bits y <-> b0 = framed bits [] /\ x = y).
  { intros x y. unfold framed. split; [|intros (-> & ->); rewrite app_nil_r; reflexivity]. intros E. unfold lead in L0. destruct (bits mod 8 =? 0); cbn [app] in *.
    - apply blen_zero in L0. subst b0. auto.
    - destruct (blen_one b0 L0) as (z & ->). cbn [app] in E. injection E as -> ->. auto. }
  destruct (list_eqb b0 (framed bits [])) eqn:E0; [apply list_eqb_eq in E0|]; cbn [negb].
  2: { rewrite !orb_true_r. cbn [orb]. split; [eauto|]. split; [discriminate|]. intros [(ps & E & _)|(ps & E & _)]; rewrite <- app_assoc in E; unfold pkcs_block in E; apply FR in E as (E & _); apply list_eqb_eq in E; congruence. }
  destruct (Z.eqb_spec t 2) as [->|Nt]; cbn [negb orb].
  2: { rewrite orb_true_r. split; [eauto|]. split; [discriminate|]. intros [(ps & E & _)|(ps & E & _)]; rewrite <- app_assoc in E; unfold pkcs_block in E; apply FR in E as (_ & E); cbn [app] in E; congruence. }
  rewrite orb_false_r. destruct (pkcs_skip_spec l Hl 1) as [(ps & m' & -> & NZ & ->)|(NZ & ->)].
  - rewrite blen_app, blen_cons in Lr. replace (n - (1 + blen ps + 1)) with (blen m') by lia.
    replace ((b0 ++ [2]) ++ ps ++ 0 :: m') with ((b0 ++ [2] ++ ps ++ [0]) ++ m') by (rewrite <- !app_assoc; reflexivity). rewrite (rd_end _ m') by (rewrite ?blen_app, ?L0; change (blen [2]) with 1; change (blen [0]) with 1; lia). cbn [rbind].
    assert (W : forall ps2, (b0 ++ [2] ++ ps ++ [0]) ++ m' = framed bits (2 :: ps2) <-> ps2 = ps ++ 0 :: m').
    { intros ps2. rewrite <- !app_assoc. cbn [app]. rewrite FR. split; [intros (_ & E); congruence|intros ->; auto]. }
    match goal with |- context [if ?c then ROk None else _] => destruct c eqn:C end.
    + split; [eauto|]. split; [discriminate|]. apply Z.ltb_lt in C. pose proof (blen_nonneg ps) as Pp. intros [(ps2 & E & NZ2 & H)|(ps2 & E & NZ2 & ->)].
      * unfold pkcs_block in E. apply W in E. apply split_unique in E as (-> & ->); auto. exfalso. rewrite Z.gtb_ltb in C. destruct H as [H|H]; [unfold blen in *; destruct (Z.ltb_spec 10 n); lia|]. subst m'. change (blen []) with 0 in C. destruct (Z.ltb_spec 10 n); lia.
      * apply W in E. subst ps2. apply Forall_app in NZ2 as (_ & NZ2). inversion NZ2; lia.
    + split; [eauto|]. apply Z.ltb_ge in C. split.
      * intros [= ->]. left. exists ps. split; [unfold pkcs_block; apply W; auto|]. split; auto. rewrite Z.gtb_ltb in C. unfold blen in *. destruct m; [right; auto|left]. cbn [length] in *. destruct (Z.ltb_spec 10 n); lia.
      * intros [(ps2 & E & NZ2 & H)|(ps2 & E & NZ2 & ->)].
        { unfold pkcs_block in E. apply W in E. apply split_unique in E as (-> & ->); auto. }
        { apply W in E. subst ps2. apply Forall_app in NZ2 as (_ & NZ2). inversion NZ2; lia. }
  - replace (n - (1 + blen l)) with 0 by lia. destruct (Z.ltb_spec (if n >? 10 then n - 10 else 0) 0) as [C|_]; [rewrite Z.gtb_ltb in C; destruct (Z.ltb_spec 10 n); lia|].
    assert (RD : rd ((b0 ++ [2]) ++ l) (lead bits + (1 + blen l)) 0 = ROk []).
    { rewrite <- (app_nil_r ((b0 ++ [2]) ++ l)). apply rd_end; auto. rewrite !blen_app, L0. change (blen [2]) with 1. lia. }
    rewrite RD. cbn [rbind]. split; [eauto|]. split.
    + intros [= <-]. right. exists l. rewrite <- app_assoc. cbn [app]. split; [apply FR; auto|]. auto.
    + intros [(ps2 & E & NZ2 & H)|(ps2 & E & NZ2 & ->)]; auto. rewrite <- app_assoc in E. unfold pkcs_block in E. apply FR in E as (_ & E). cbn [app] in E. injection E as E. exfalso. apply (split_none ps2 l m NZ E).
Qed.

Theorem pkcs_signature_spec H hlen hid msg bits buf : 0 <= bits -> hash_of H hlen -> pkcs_sig_min (blen hid) hlen <= bits -> blen buf = block_bytes bits ->
  exists rep, pkcs_sig_representative H hlen hid msg bits buf = ROk rep /\ pkcs_signature_block bits hid (H msg) rep.
Proof.
  intros P HH Mn Lb. unfold pkcs_sig_representative, pkcs_sig_min in *. destruct (lead_bytes bits P) as (B & R). destruct (HH msg) as (Lh & _). change (Z.of_nat (length (H msg))) with (blen (H msg)) in Lh. pose proof (blen_nonneg hid). pose proof (blen_nonneg (H msg)).
  assert (N1 : hlen + blen hid + 10 <= bits / 8) by (apply Z.div_le_lower_bound; lia). destruct (start_wr bits buf P Lb) as (b0 & rest & -> & Hb0 & L0 & Lr). cbn [rbind]. set (n := bits / 8) in *. clearbody n.
  destruct (split_at rest 1 ltac:(lia)) as (c & r1 & -> & Lc & L1). rewrite (wr_app b0 c r1 [1]) by (auto; rewrite Lc; reflexivity). cbn [rbind]. rewrite blen_app in Lr.
  destruct (split_at r1 (n - hlen - blen hid - 2) ltac:(lia)) as (x & r2 & -> & Lx & L2). rewrite blen_app in *. destruct (split_at r2 1 ltac:(lia)) as (s & r3 & -> & Ls & L3). rewrite blen_app in *. destruct (split_at r3 (blen hid) ltac:(lia)) as (y & z & -> & Ly & Lz). rewrite blen_app in *.
  replace (b0 ++ [1] ++ x ++ s ++ y ++ z) with ((b0 ++ [1]) ++ x ++ (s ++ y ++ z)) by (rewrite <- app_assoc; reflexivity). rewrite (fill_app (b0 ++ [1]) x) by (rewrite ?blen_app, ?L0; change (blen [1]) with 1; lia). cbn [rbind].
  set (ff := repeat 255 _). assert (Lf : blen ff = n - hlen - blen hid - 2) by (unfold ff; rewrite blen_repeat; lia).
  replace ((b0 ++ [1]) ++ ff ++ s ++ y ++ z) with ((b0 ++ [1] ++ ff) ++ s ++ (y ++ z)) by (rewrite <- !app_assoc; reflexivity). rewrite (wr_app _ s _ [0]) by (rewrite ?blen_app, ?L0, ?Ls; change (blen [1]) with 1; try lia; reflexivity). cbn [rbind].
  replace ((b0 ++ [1] ++ ff) ++ [0] ++ y ++ z) with ((b0 ++ [1] ++ ff ++ [0]) ++ y ++ z) by (rewrite <- !app_assoc; reflexivity). rewrite (wr_app _ y z hid) by (rewrite ?blen_app, ?L0; change (blen [1]) with 1; change (blen [0]) with 1; lia). cbn [rbind].
  replace ((b0 ++ [1] ++ ff ++ [0]) ++ hid ++ z) with ((b0 ++ [1] ++ ff ++ [0] ++ hid) ++ z) by (rewrite <- !app_assoc; reflexivity). rewrite (wr_end _ z (H msg)) by (rewrite ?blen_app, ?L0; change (blen [1]) with 1; change (blen [0]) with 1; lia).
  eexists. split; [reflexivity|]. exists (length ff). split; [change (blen ff) with (Z.of_nat (length ff)) in Lf; lia|]. split.
  - unfold framed. subst b0. unfold framed. rewrite app_nil_r, <- !app_assoc. cbn [app]. do 3 f_equal. unfold ff. rewrite repeat_length. reflexivity.
  - change (blen ((b0 ++ [1] ++ ff ++ [0] ++ hid) ++ H msg) = block_bytes bits). rewrite !blen_app, L0. change (blen [1]) with 1. change (blen [0]) with 1. lia.
Qed.

(* ------------------------------------------------------------------ MGF1 and KDF2 *)
Lemma counter_mask_step H hlen input params start n : hash_of H hlen -> 1 <= hlen ->
  counter_mask H input params start n = let d := H (input ++ be_bytes 4 start ++ params) in firstn n d ++ counter_mask H input params (start + 1) (n - length d).
Proof.
  intros HH P. cbv zeta. unfold counter_mask. destruct n as [|n]; [reflexivity|]. cbn [seq map concat]. rewrite Z.add_0_r. destruct (HH (input ++ be_bytes 4 start ++ params)) as (L & _). set (d := H (input ++ be_bytes 4 start ++ params)) in *. rewrite firstn_app. f_equal.
  assert (G : forall j k k', (j <= k)%nat -> (j <= k')%nat -> forall a b : nat -> list Z, (forall i, a i = b i) -> (forall i, Z.of_nat (length (a i)) = hlen) -> firstn j (concat (map a (seq 0 k))) = firstn j (concat (map b (seq 0 k')))).
  { clear - P. intros j k k' Hk Hk' a b E La. assert (EQ : forall n s, map a (seq s n) = map b (seq s n)) by (intros; apply map_ext; auto).
    assert (LC : forall k s, Z.of_nat (length (concat (map a (seq s k)))) = Z.of_nat k * hlen) by (induction k0 as [|k0 IH]; intros; cbn [seq map concat length]; [lia|]; rewrite app_length; specialize (IH (S s)); specialize (La s); lia).
    assert (F : forall k, (j <= k)%nat -> firstn j (concat (map a (seq 0 k))) = firstn j (concat (map a (seq 0 j)))).
    { intros k0 J. replace k0 with (j + (k0 - j))%nat by lia. rewrite seq_app, map_app, concat_app, firstn_app. specialize (LC j 0%nat). replace (j - length (concat (map a (seq 0 j))))%nat with 0%nat by nia. cbn [firstn]. apply app_nil_r. }
    rewrite (F k Hk), <- EQ, (F k' Hk'). reflexivity. }
  rewrite <- seq_shift, map_map. apply G; [lia|lia| |].
  - intros i. do 3 f_equal. f_equal. lia.
  - intros i. apply HH.
Qed.
Lemma mgf_loop_spec H hlen mask input params : hash_of H hlen -> 1 <= hlen -> forall fuel out counter, (length out <= fuel)%nat -> 0 <= counter ->
  mgf_loop H mask input params fuel (counter mod 2 ^ 32) out = ROk (if mask then xorl out (counter_mask H input params counter (length out)) else counter_mask H input params counter (length out)).
Proof.
  intros HH P. induction fuel as [|fuel IH]; intros out counter L C.
  - destruct out; [|cbn in L; lia]. destruct mask; reflexivity.
  - destruct out as [|o out]; [destruct mask; reflexivity|]. cbn [mgf_loop]. cbv zeta. set (l := o :: out) in *.
    assert (EB : be_bytes 4 (counter mod 2 ^ 32) = be_bytes 4 counter).
    { apply be_val_inj; try apply be_bytes_bytes; [rewrite !be_bytes_length; auto|]. rewrite !be_val_bytes_mod. change (256 ^ Z.of_nat 4) with (2 ^ 32). apply Z.mod_mod. lia. }
    rewrite EB. rewrite (counter_mask_step H hlen input params counter (length l)) by auto. cbv zeta. destruct (HH (input ++ be_bytes 4 counter ++ params)) as (Ld & _). set (d := H (input ++ be_bytes 4 counter ++ params)) in *.
    rewrite Zplus_mod_idemp_l. rewrite (IH (skipn (Nat.min (length d) (length l)) l) (counter + 1)) by (try lia; rewrite skipn_length; subst l; cbn [length] in *; lia). cbn [rbind]. f_equal.
    assert (E1 : firstn (Nat.min (length d) (length l)) d = firstn (length l) d).
    { destruct (Nat.min_spec (length d) (length l)) as [(A & ->)|(A & ->)]; auto. rewrite firstn_all. symmetry. apply firstn_all2. lia. }
    rewrite skipn_length. rewrite E1. replace (length l - Nat.min (length d) (length l))%nat with (length l - length d)%nat by lia. destruct mask; auto.
    transitivity (xorl (firstn (Nat.min (length d) (length l)) l ++ skipn (Nat.min (length d) (length l)) l) (firstn (length l) d ++ counter_mask H input params (counter + 1) (length l - length d))).
    + rewrite xorl_app; auto. rewrite !firstn_length. lia.
    + rewrite firstn_skipn. reflexivity.
Qed.
Theorem mgf_spec H hlen out input params mask start : hash_of H hlen -> 1 <= hlen -> 0 <= start < 2 ^ 32 ->
  mgf_kdf H out input params mask start = ROk (if mask then xorl out (counter_mask H input params start (length out)) else counter_mask H input params start (length out)).
Proof. intros HH P S. unfold mgf_kdf. rewrite <- (Z.mod_small start (2 ^ 32) S) at 1. apply (mgf_loop_spec H hlen); auto; lia. Qed.
Lemma counter_mask_bytes H hlen input params start n : hash_of H hlen -> 1 <= hlen -> length (counter_mask H input params start n) = n /\ bytes (counter_mask H input params start n).
Proof.
  intros HH P. unfold counter_mask. rewrite firstn_length. split.
  - enough (G : forall k s, Z.of_nat (length (concat (map (fun i => H (input ++ be_bytes 4 (start + Z.of_nat i) ++ params)) (seq s k)))) = Z.of_nat k * hlen) by (specialize (G n 0%nat); nia).
    induction k as [|k IH]; intros; cbn [seq map concat length]; [lia|]. rewrite app_length. specialize (IH (S s)). destruct (HH (input ++ be_bytes 4 (start + Z.of_nat s) ++ params)) as (L & _). lia.
  - assert (G : forall l, bytes (concat (map (fun i : nat => H (input ++ be_bytes 4 (start + Z.of_nat i) ++ params)) l))) by (induction l as [|i l IH]; cbn [map concat]; [constructor|]; apply Forall_app; split; [apply HH|auto]).
    specialize (G (seq 0 n)). rewrite <- (firstn_skipn n) in G. apply Forall_app in G. apply G.
Qed.
Lemma counter_mask_prefix H hlen input params start n n' : hash_of H hlen -> 1 <= hlen -> (n <= n')%nat -> counter_mask H input params start n = firstn n (counter_mask H input params start n').
Proof.
  intros HH P. revert start n. induction n' as [n' IH] using (well_founded_induction Wf_nat.lt_wf). intros start n L. rewrite (counter_mask_step H hlen input params start n), (counter_mask_step H hlen input params start n') by auto. cbv zeta. destruct (HH (input ++ be_bytes 4 start ++ params)) as (Ld & _). set (d := H (input ++ be_bytes 4 start ++ params)) in *.
  rewrite firstn_app, firstn_firstn, firstn_length. rewrite Nat.min_l by auto. f_equal. destruct n as [|n]; [reflexivity|]. rewrite (IH (n' - length d)%nat ltac:(lia) (start + 1) (S n - length d)%nat ltac:(lia)). destruct (Nat.le_gt_cases (length d) n') as [C|C].
  - rewrite Nat.min_r by auto. reflexivity.
  - replace (n' - length d)%nat with 0%nat by lia. replace (S n - length d)%nat with 0%nat by lia. replace (S n - Nat.min n' (length d))%nat with 0%nat by lia. reflexivity.
Qed.
Theorem mgf1_masks H hlen : hash_of H hlen -> 1 <= hlen -> masks_with (mgf1 H) (fun input n => counter_mask H input [] 0 n).
Proof.
  intros HH P. split; [intros; apply (counter_mask_bytes H hlen); auto|]. intros out input. unfold mgf1. rewrite !(mgf_spec H hlen) by (auto; lia). auto.
Qed.

(* ------------------------------------------------------------------ OAEP *)
Section Oaep.
Variable H : list Z -> list Z.
Variable hlen : Z.
Variable gam : bool -> list Z -> list Z -> res (list Z).
Variable M : list Z -> nat -> list Z.
Hypothesis HH : hash_of H hlen.
Hypothesis HM : masks_with gam M.
Lemma H_len x : blen (H x) = hlen.
Proof. apply HH. Qed.
Lemma hlen_pos : 0 <= hlen.
Proof. rewrite <- (H_len []). apply blen_nonneg. Qed.
Lemma blen_xor a b : blen (xorl a (M b (length a))) = blen a.
Proof. unfold blen. rewrite xorl_length. destruct HM as (A & _). rewrite (proj1 (A b (length a))). lia. Qed.
Theorem oaep_pad_spec seed label m bits buf : 0 <= bits -> blen seed = hlen -> 2 * hlen + 1 + blen m <= bits / 8 -> blen buf = block_bytes bits ->
  exists block, oaep_pad H hlen gam seed label m bits buf = ROk block /\ oaep_block H M bits seed label m block.
Proof.
  intros P Ls N Lb. unfold oaep_pad. destruct (lead_bytes bits P) as (B & R). pose proof hlen_pos as Ph. pose proof (blen_nonneg m) as Pm. destruct (start_wr bits buf P Lb) as (b0 & rest & -> & Hb0 & L0 & Lr). cbn [rbind].
  set (n := bits / 8) in *. clearbody n. destruct (split_at rest hlen ltac:(lia)) as (s & r1 & -> & Lrs & L1). rewrite blen_app in *. destruct (split_at r1 hlen ltac:(lia)) as (h & r2 & -> & Lh & L2). rewrite blen_app in *.
  destruct (split_at r2 (n - 2 * hlen - blen m - 1) ltac:(lia)) as (z & r3 & -> & Lz & L3). rewrite blen_app in *. destruct (split_at r3 1 ltac:(lia)) as (o & mm & -> & Lo & L4). rewrite blen_app in *.
  replace (b0 ++ s ++ h ++ z ++ o ++ mm) with ((b0 ++ s) ++ h ++ (z ++ o ++ mm)) by (rewrite <- app_assoc; reflexivity). rewrite (wr_app _ h _ (H label)) by (rewrite ?blen_app, ?H_len; lia). cbn [rbind].
  replace ((b0 ++ s) ++ H label ++ z ++ o ++ mm) with ((b0 ++ s ++ H label) ++ z ++ (o ++ mm)) by (rewrite <- !app_assoc; reflexivity). rewrite (fill_app _ z) by (rewrite ?blen_app, ?H_len; lia). cbn [rbind]. set (zz := repeat 0 _). assert (Lzz : blen zz = blen z) by (unfold zz; rewrite blen_repeat; lia).
  replace ((b0 ++ s ++ H label) ++ zz ++ o ++ mm) with ((b0 ++ s ++ H label ++ zz) ++ o ++ mm) by (rewrite <- !app_assoc; reflexivity). rewrite (wr_app _ o _ [1]) by (rewrite ?blen_app, ?H_len, ?Lo; try lia; reflexivity). cbn [rbind].
  replace ((b0 ++ s ++ H label ++ zz) ++ [1] ++ mm) with ((b0 ++ s ++ H label ++ zz ++ [1]) ++ mm) by (rewrite <- !app_assoc; reflexivity). rewrite (wr_end _ mm m) by (rewrite ?blen_app, ?H_len; change (blen [1]) with 1; lia). cbn [rbind].
  replace ((b0 ++ s ++ H label ++ zz ++ [1]) ++ m) with (b0 ++ s ++ (H label ++ zz ++ [1] ++ m)) by (rewrite <- !app_assoc; reflexivity). rewrite (wr_app b0 s _ seed) by lia. cbn [rbind].
  set (db := H label ++ zz ++ [1] ++ m). assert (Ld : blen db = n - hlen) by (unfold db; rewrite !blen_app, H_len; change (blen [1]) with 1; lia).
  replace (b0 ++ seed ++ db) with ((b0 ++ seed) ++ db) by (rewrite <- app_assoc; reflexivity). rewrite (rd_end _ db) by (rewrite ?blen_app; lia). cbn [rbind].
  rewrite <- app_assoc. rewrite (rd_app b0 seed db) by lia. cbn [rbind]. rewrite (proj2 (proj2 HM db seed)). cbn [rbind]. set (md := xorl db (M seed (length db))). assert (Lmd : blen md = blen db) by apply blen_xor.
  rewrite app_assoc. rewrite (wr_end _ db md) by (rewrite ?blen_app; lia). cbn [rbind]. rewrite <- app_assoc. rewrite (rd_app b0 seed md) by lia. cbn [rbind]. rewrite app_assoc. rewrite (rd_end _ md) by (rewrite ?blen_app; lia). cbn [rbind].
  rewrite (proj2 (proj2 HM seed md)). cbn [rbind]. set (ms := xorl seed (M md (length seed))). assert (Lms : blen ms = blen seed) by apply blen_xor. rewrite <- app_assoc. rewrite (wr_app b0 seed md ms) by lia.
  eexists. split; [reflexivity|]. exists (Z.to_nat (n - hlen - hlen - blen m - 1)). cbv zeta. fold zz. fold db. fold md. fold ms. split.
  - subst b0. unfold framed. rewrite app_nil_r. reflexivity.
  - change (blen (b0 ++ ms ++ md) = block_bytes bits). rewrite !blen_app. lia.
Qed.

(** What Unpad makes of an unmasked data block. *)
Definition oaep_open (label d : list Z) : option (list Z) :=
  let rest := skipn (Z.to_nat hlen) d in
  let m := find_byte 1 rest in
  if negb (list_eqb (firstn (Z.to_nat hlen) d) (H label)) || (negb (find_not 0 (firstn m rest) =? m)%nat || (m =? length rest)%nat) then None else Some (skipn (S m) rest).
Lemma find_not_repeat k l : find_not 0 (repeat 0 k ++ l) = (k + find_not 0 l)%nat.
Proof. induction k; cbn; auto. Qed.
Lemma find_byte_zeros k l : find_byte 1 (repeat 0 k ++ 1 :: l) = k.
Proof. induction k; cbn; auto. Qed.
Lemma find_byte_app l : (find_byte 1 l < length l)%nat -> l = firstn (find_byte 1 l) l ++ 1 :: skipn (S (find_byte 1 l)) l.
Proof.
  induction l as [|b l IH]; cbn [find_byte length]; intros L; [lia|]. destruct (Z.eqb_spec b 1) as [->|N]; [reflexivity|]. cbn [firstn skipn app]. f_equal. apply IH. lia.
Qed.
Lemma find_byte_le l : (find_byte 1 l <= length l)%nat.
Proof. induction l as [|b l IH]; cbn [find_byte length]; [lia|]. destruct (b =? 1); lia. Qed.
Lemma find_not_all l : find_not 0 l = length l -> l = repeat 0 (length l).
Proof. induction l as [|b l IH]; cbn [find_not length repeat]; auto. destruct (Z.eqb_spec b 0) as [->|N]; [|discriminate]. intros E. f_equal. apply IH. lia. Qed.
Lemma oaep_open_spec label d m : hlen <= blen d -> (oaep_open label d = Some m <-> exists k, d = H label ++ repeat 0 k ++ 1 :: m).
Proof.
  intros L. unfold oaep_open. cbv zeta. pose proof hlen_pos. destruct (split_at d hlen ltac:(lia)) as (a & r & -> & La & Lr). replace (Z.to_nat hlen) with (length a) by (unfold blen in La; lia). rewrite skipn_app, skipn_all, Nat.sub_diag. cbn [skipn app]. rewrite firstn_app, firstn_all, Nat.sub_diag. cbn [firstn]. rewrite app_nil_r.
  split.
  - destruct (list_eqb a (H label)) eqn:E1; [apply list_eqb_eq in E1; subst a|discriminate]. cbn [negb orb]. destruct (Nat.eqb_spec (find_not 0 (firstn (find_byte 1 r) r)) (find_byte 1 r)) as [E2|]; [|discriminate]. cbn [negb orb]. destruct (Nat.eqb_spec (find_byte 1 r) (length r)) as [|E3]; [discriminate|]. intros [= <-].
    exists (find_byte 1 r). f_equal. pose proof (find_byte_le r). rewrite (find_byte_app r) at 1 by lia. f_equal. assert (LF : length (firstn (find_byte 1 r) r) = find_byte 1 r) by (rewrite firstn_length; lia). rewrite <- LF at 2. apply find_not_all. lia.
  - intros (k & E). assert (a = H label /\ r = repeat 0 k ++ 1 :: m) as (-> & ->).
    { apply app_inj_pivot_len in E; auto. pose proof (H_len label). unfold blen in *. lia. }
    rewrite (proj2 (list_eqb_eq _ _) eq_refl). cbn [negb orb]. rewrite find_byte_zeros. rewrite firstn_app, repeat_length, Nat.sub_diag. cbn [firstn]. rewrite (firstn_all2 (repeat 0 k)) by (rewrite repeat_length; lia). rewrite find_not_repeat. cbn [find_not]. rewrite Nat.add_0_r, Nat.eqb_refl. cbn [negb orb].
    rewrite app_length, repeat_length. cbn [length]. destruct (Nat.eqb_spec k (k + S (length m))); [lia|]. f_equal. clear. induction k as [|k IH]; [reflexivity|exact IH].
Qed.
Theorem oaep_unpad_value block label bits : 0 <= bits -> 2 * hlen <= bits / 8 -> blen block = block_bytes bits ->
  exists b0 s d, block = b0 ++ s ++ d /\ blen b0 = lead bits /\ blen s = hlen /\ blen d = bits / 8 - hlen /\
  oaep_unpad H hlen gam block label bits = ROk (if list_eqb b0 (framed bits []) then oaep_open label (xorl d (M (xorl s (M d (length s))) (length d))) else None).
Proof.
  intros P N Lb. unfold oaep_unpad. destruct (lead_bytes bits P) as (B & R). pose proof hlen_pos as Ph. destruct (start_rd bits block P Lb) as (b0 & rest & -> & L0 & Lr & ->). cbn [rbind]. set (n := bits / 8) in *. clearbody n.
  destruct (split_at rest hlen ltac:(lia)) as (s & d & -> & Ls & Ld). exists b0, s, d. split; auto. split; auto. split; auto. split; [rewrite blen_app in *; lia|]. rewrite (rd_end b0 (s ++ d)) by lia. cbn [rbind]. rewrite blen_app in *. rewrite (rd_start s d) by lia. cbn [rbind]. rewrite (rd_end s d) by lia. cbn [rbind].
  rewrite (proj2 (proj2 HM s d)). cbn [rbind]. set (s' := xorl s (M d (length s))). rewrite (proj2 (proj2 HM d s')). cbn [rbind]. set (d' := xorl d (M s' (length d))). assert (Ld' : blen d' = blen d) by apply blen_xor.
  destruct (split_at d' hlen ltac:(lia)) as (a & r & Ea & La & Lrr). rewrite Ea. rewrite (rd_end a r) by lia. cbn [rbind]. rewrite (rd_start a r) by lia. cbn [rbind]. f_equal.
  unfold oaep_open. cbv zeta. replace (Z.to_nat hlen) with (length a) by (unfold blen in La; lia). rewrite skipn_app, skipn_all, Nat.sub_diag. cbn [skipn app]. rewrite firstn_app, firstn_all, Nat.sub_diag. cbn [firstn]. rewrite app_nil_r.
  destruct (list_eqb b0 (framed bits [])); cbn [negb].
  - rewrite orb_false_r. destruct (Z.ltb_spec n (2 * hlen + 1)) as [C|C].
    + assert (r = []) by (apply blen_zero; lia). subst r. cbn [find_byte length]. cbn [Nat.eqb]. rewrite !orb_true_r. reflexivity.
    + rewrite orb_false_r. destruct (list_eqb a (H label)), (find_not 0 (firstn (find_byte 1 r) r) =? find_byte 1 r)%nat, (find_byte 1 r =? length r)%nat; reflexivity.
  - rewrite !orb_true_r. reflexivity.
Qed.
Lemma framed_split bits b0 x y : blen b0 = lead bits -> (b0 ++ x = framed bits y <-> b0 = framed bits [] /\ x = y).
Proof.
  intros L0. unfold framed. split; [|intros (-> & ->); rewrite app_nil_r; reflexivity]. intros E. unfold lead in L0. destruct (bits mod 8 =? 0); cbn [app] in *.
  - apply blen_zero in L0. subst b0. auto.
  - destruct (blen_one b0 L0) as (z & ->). cbn [app] in E. injection E as -> ->. auto.
Qed.
Lemma xor_self_M a b : xorl (xorl a (M b (length a))) (M b (length a)) = a.
Proof. apply xorl_cancel. destruct HM as (A & _). rewrite (proj1 (A b (length a))). lia. Qed.
Lemma blen_len a b : blen a = blen b -> length a = length b.
Proof. unfold blen. lia. Qed.
Theorem oaep_unpad_exact block label bits m : 0 <= bits -> 2 * hlen <= bits / 8 -> blen block = block_bytes bits ->
  (exists r, oaep_unpad H hlen gam block label bits = ROk r) /\
  (oaep_unpad H hlen gam block label bits = ROk (Some m) <-> exists seed, blen seed = hlen /\ oaep_block H M bits seed label m block).
Proof.
  intros P N Lb. pose proof (blen_nonneg m) as Pm. destruct (lead_bytes bits P) as (B & R). destruct (oaep_unpad_value block label bits P N Lb) as (b0 & s & d & -> & L0 & Ls & Ld & ->). split; [eauto|]. set (s' := xorl s (M d (length s))). set (d' := xorl d (M s' (length d))).
  assert (Ls' : blen s' = blen s) by apply blen_xor. assert (Ld' : blen d' = blen d) by apply blen_xor. pose proof hlen_pos as Ph.
  assert (Es : s = xorl s' (M d (length s'))) by (rewrite (blen_len s' s Ls'); unfold s'; rewrite xor_self_M; auto). assert (Ed : d = xorl d' (M s' (length d'))) by (rewrite (blen_len d' d Ld'); unfold d'; rewrite xor_self_M; auto).
  split.
  - destruct (list_eqb b0 (framed bits [])) eqn:E0; [apply list_eqb_eq in E0|discriminate]. intros [= E]. apply oaep_open_spec in E as (k & E); [|lia]. exists s'. split; [lia|]. exists k. cbv zeta. rewrite <- E, <- Ed, <- Es. split; auto. apply framed_split; auto.
  - intros (seed & Lse & k & E & L). cbv zeta in E. set (db := H label ++ repeat 0 k ++ 1 :: m) in *. set (md := xorl db (M seed (length db))) in *. apply framed_split in E as (-> & E); auto. rewrite (proj2 (list_eqb_eq _ _) eq_refl).
    assert (Lx : length s = length (xorl seed (M md (length seed)))) by (apply blen_len; rewrite blen_xor; lia). apply app_inj_pivot_len in E as (E1 & E2); auto.
    assert (Q1 : s' = seed). { unfold s'. rewrite E2, E1. rewrite (blen_len _ _ (blen_xor seed md)). apply xor_self_M. }
    assert (Q2 : d' = db). { unfold d'. rewrite Q1, E2. unfold md. rewrite (blen_len _ _ (blen_xor db seed)). apply xor_self_M. }
    rewrite Q2. f_equal. apply oaep_open_spec; [|exists k; reflexivity]. unfold db. rewrite blen_app, H_len, blen_app, blen_repeat, blen_cons. lia.
Qed.
Theorem oaep_label block label label' bits seed m : 0 <= bits -> 2 * hlen <= bits / 8 -> blen seed = hlen -> oaep_block H M bits seed label m block -> H label <> H label' -> oaep_unpad H hlen gam block label' bits = ROk None.
Proof.
  intros P N Ls (k & E & L) D. change (blen block = block_bytes bits) in L. cbv zeta in E. pose proof hlen_pos as Ph. destruct (oaep_unpad_value block label' bits P N L) as (b0 & s & d & Eb & L0 & Lss & Ld & ->). rewrite Eb in E. set (db := H label ++ repeat 0 k ++ 1 :: m) in *. set (md := xorl db (M seed (length db))) in *. apply framed_split in E as (-> & E); auto. rewrite (proj2 (list_eqb_eq _ _) eq_refl).
  assert (Lx : length s = length (xorl seed (M md (length seed)))) by (apply blen_len; rewrite blen_xor; lia). apply app_inj_pivot_len in E as (E1 & E2); auto.
  assert (Q1 : xorl s (M d (length s)) = seed). { rewrite E2, E1. rewrite (blen_len _ _ (blen_xor seed md)). apply xor_self_M. } rewrite Q1.
  assert (Q2 : xorl d (M seed (length d)) = db). { rewrite E2. unfold md. rewrite (blen_len _ _ (blen_xor db seed)). apply xor_self_M. } rewrite Q2. f_equal.
  destruct (oaep_open label' db) as [m'|] eqn:O; auto. exfalso. apply oaep_open_spec in O as (k' & O). 2: { unfold db. rewrite blen_app, H_len, blen_app, blen_repeat, blen_cons. pose proof (blen_nonneg m). lia. }
  unfold db in O. apply app_inj_pivot_len in O as (O & _); [contradiction|]. apply blen_len. rewrite !H_len. reflexivity.
Qed.
End Oaep.

(* ------------------------------------------------------------------ PSS and PSSR *)
Lemma pssr_c_spec n : 0 <= n < 2 ^ 61 -> pssr_c n = be_bytes 8 (8 * n).
Proof.
  intros R. unfold pssr_c. apply be_val_inj; [apply Forall_app; split; apply be_bytes_bytes|apply be_bytes_bytes|rewrite app_length, !be_bytes_length; reflexivity|].
  rewrite be_val_app, !be_val_bytes_mod, be_bytes_length. change (256 ^ Z.of_nat 4) with (2 ^ 32). change (256 ^ Z.of_nat 8) with (2 ^ 64). rewrite Z.mod_mod by lia. rewrite Z.shiftr_div_pow2 by lia.
  rewrite (Z.mod_small (8 * n)) by lia. rewrite (Z.mod_small (n / 2 ^ 29)) by (split; [apply Z.div_pos; lia|apply Z.div_lt_upper_bound; lia]).
  replace (n / 2 ^ 29) with (8 * n / 2 ^ 32) by (change (2 ^ 32) with (8 * 2 ^ 29); apply Z.div_mul_cancel_l; lia). pose proof (Z.div_mod (8 * n) (2 ^ 32) ltac:(lia)). rewrite (Z.mul_comm n 8). lia.
Qed.
Lemma crop8 b k : 0 < k < 8 -> crop 8 b k = b mod 2 ^ k.
Proof. intros R. unfold crop. destruct (Z.ltb_spec k 8); [|lia]. rewrite <- Z.land_ones by lia. rewrite Z.ones_equiv. reflexivity. Qed.
Lemma clear_top_length bits l : length (clear_top bits l) = length l.
Proof. destruct l; reflexivity. Qed.
Lemma clear_top_blen bits l : blen (clear_top bits l) = blen l.
Proof. unfold blen. rewrite clear_top_length. reflexivity. Qed.
Lemma clear_top_app bits a b : a <> [] -> clear_top bits (a ++ b) = clear_top bits a ++ b.
Proof. destruct a; [congruence|reflexivity]. Qed.
Lemma clear_top_idem bits l : clear_top bits (clear_top bits l) = clear_top bits l.
Proof. destruct l as [|b l]; cbn [clear_top]; auto. destruct (bits mod 8 =? 0); auto. rewrite Z.mod_mod; auto. pose proof (Z.mod_pos_bound bits 8 ltac:(lia)). pose proof (Z.pow_pos_nonneg 2 (bits mod 8) ltac:(lia) ltac:(lia)). lia. Qed.
Lemma clear_top_xor bits a b : clear_top bits (xorl (clear_top bits a) b) = clear_top bits (xorl a b).
Proof.
  destruct a as [|x a], b as [|y b]; cbn [clear_top xorl]; auto. destruct (Z.eqb_spec (bits mod 8) 0); auto. f_equal. pose proof (Z.mod_pos_bound bits 8 ltac:(lia)). rewrite <- !Z.land_ones by lia. apply Z.bits_inj'. intros i I. rewrite !Z.land_spec, !Z.lxor_spec, !Z.land_spec. destruct (Z.testbit x i), (Z.testbit y i), (Z.testbit (Z.ones (bits mod 8)) i); reflexivity.
Qed.
Lemma clear_top_zeros bits k x l : x = 0 \/ x = 1 -> clear_top bits (repeat 0 k ++ x :: l) = repeat 0 k ++ x :: l.
Proof.
  intros Hx. pose proof (Z.mod_pos_bound bits 8 ltac:(lia)). assert (G : forall y, y = 0 \/ y = 1 -> (if bits mod 8 =? 0 then y else y mod 2 ^ (bits mod 8)) = y).
  { intros y Hy. destruct (Z.eqb_spec (bits mod 8) 0) as [|N]; auto. apply Z.mod_small. pose proof (Z.pow_le_mono_r 2 1 (bits mod 8) ltac:(lia) ltac:(lia)). lia. }
  destruct k; cbn [repeat app clear_top]; rewrite G; auto.
Qed.
Lemma find_not_split front x : exists y rest, front ++ [x] = repeat 0 (find_not 0 front) ++ y :: rest /\ (y = 0 -> rest = []).
Proof.
  induction front as [|b front IH]; cbn [find_not app repeat]; [exists x, []; auto|]. destruct (Z.eqb_spec b 0) as [->|N]; [|exists b, (front ++ [x]); split; auto; contradiction].
  destruct IH as (y & rest & -> & Z). exists y, rest. auto.
Qed.
Lemma zeros_unique k y rest : forall k' m, repeat 0 k ++ y :: rest = repeat 0 k' ++ 1 :: m -> (y = 0 -> rest = []) -> k = k' /\ y = 1 /\ rest = m.
Proof.
  induction k as [|k IH]; intros [|k'] m E Z; cbn [repeat app] in E.
  - injection E as -> ->. auto.
  - injection E as -> E. rewrite (Z eq_refl) in E. destruct k'; discriminate.
  - discriminate.
  - injection E as E. destruct (IH _ _ E Z) as (-> & A). auto.
Qed.

Section Pssr.
Variable H : list Z -> list Z.
Variable hlen : Z.
Variable gam : bool -> list Z -> list Z -> res (list Z).
Variable M : list Z -> nat -> list Z.
Variable recovery : bool.
Variable saltlen : Z.
Variable minpad : Z.
Hypothesis HH : hash_of H hlen.
Hypothesis HM : masks_with gam M.
Hypothesis Hsalt : 0 <= saltlen.
Hypothesis Hpad : 0 <= minpad.
Lemma pssr_room bits idl r : 0 <= idl -> 0 <= r -> pssr_min hlen saltlen minpad idl <= bits -> r <= pssr_max hlen recovery saltlen minpad bits idl -> minpad + saltlen + hlen + idl + r + 2 <= block_bytes bits.
Proof.
  intros I R B L. unfold pssr_max, pssr_min, sat_sub, block_bytes in *. set (q := 9 + 8 * (minpad + saltlen + hlen + idl)) in *. apply Z.div_le_lower_bound; [lia|].
  destruct recovery; [|lia]. rewrite Z.gtb_ltb in L. destruct (Z.ltb_spec q bits); [|change (0 / 8) with 0 in L; lia]. pose proof (Z.mul_div_le (bits - q) 8 ltac:(lia)). lia.
Qed.
Lemma M_len h n : length (M h n) = n.
Proof. apply HM. Qed.
Lemma crop_first bits l rest : 0 <= bits -> l <> [] ->
  (if bits mod 8 =? 0 then ROk (l ++ rest) else rbind (rd1 (l ++ rest) 0) (fun b => wr (l ++ rest) 0 [crop 8 b (bits mod 8)])) = ROk (clear_top bits l ++ rest).
Proof.
  intros P N. destruct l as [|b l]; [congruence|]. cbn [clear_top]. pose proof (Z.mod_pos_bound bits 8 ltac:(lia)) as B. destruct (Z.eqb_spec (bits mod 8) 0) as [|Z]; auto. rewrite (rd1_app [] b (l ++ rest)) by reflexivity. cbn [rbind]. rewrite crop8 by lia.
  apply (wr_app [] [b] (l ++ rest) [b mod 2 ^ (bits mod 8)]); reflexivity.
Qed.
Theorem pssr_compute_spec salt r hid msg bits buf : 0 <= bits -> pssr_min hlen saltlen minpad (blen hid) <= bits -> blen salt = saltlen -> blen r <= pssr_max hlen recovery saltlen minpad bits (blen hid) -> blen r < 2 ^ 61 -> blen buf = block_bytes bits ->
  exists block pad, pssr_compute H hlen gam salt r hid msg bits buf = ROk block /\ pss_block H M bits hid msg r salt pad block /\ Z.of_nat pad = block_bytes bits - blen hid - hlen - saltlen - blen r - 2.
Proof.
  intros P B Ls Lr Lr' Lb. pose proof (blen_nonneg r) as Pr. pose proof (blen_nonneg hid) as Pi. pose proof (pssr_room bits (blen hid) (blen r) Pi Pr B Lr) as Room. pose proof (hlen_pos H hlen HH) as Ph.
  unfold pssr_compute. change (bits_to_bytes bits) with (block_bytes bits). cbv zeta. rewrite pssr_c_spec by lia. change (H (be_bytes 8 (8 * blen r) ++ r ++ H msg ++ salt)) with (pss_hash H msg r salt). set (h := pss_hash H msg r salt).
  assert (Lh : blen h = hlen) by apply HH. remember (block_bytes bits) as n eqn:En. set (pad := Z.to_nat (n - blen hid - hlen - saltlen - blen r - 2)). assert (Lp : Z.of_nat pad = n - blen hid - hlen - saltlen - blen r - 2) by lia. clearbody pad.
  destruct (split_at buf (n - (blen hid + 1) - hlen) ltac:(lia)) as (db & b1 & -> & Ldb & L1). rewrite blen_app in *. destruct (split_at b1 hlen ltac:(lia)) as (hh & b2 & -> & Lhh & L2). rewrite blen_app in *. destruct (split_at b2 (blen hid) ltac:(lia)) as (ii & b3 & -> & Lii & L3). rewrite blen_app in *. destruct (blen_one b3 ltac:(lia)) as (t & ->).
  rewrite (wr_app db hh _ h) by lia. cbn [rbind]. rewrite (rd_start db) by lia. cbn [rbind]. rewrite (rd_app db h) by lia. cbn [rbind]. rewrite (proj1 (proj2 HM db h)). cbn [rbind].
  set (mk := M h (length db)). assert (Lmk : blen mk = blen db) by (unfold mk, blen; rewrite M_len; reflexivity). rewrite (wr_start db _ mk) by auto. cbn [rbind].
  destruct (split_at mk (Z.of_nat pad) ltac:(lia)) as (m1 & mk1 & E1 & Lm1 & L5). destruct (split_at mk1 1 ltac:(lia)) as (m2 & mk2 & E2 & Lm2 & L6). destruct (split_at mk2 (blen r) ltac:(lia)) as (m3 & m4 & E3 & Lm3 & L7). assert (E : mk = m1 ++ m2 ++ m3 ++ m4) by (subst mk1 mk2; auto). clear E1 E2 E3.
  set (tl := h ++ ii ++ [t]). replace (mk ++ tl) with ((m1 ++ m2 ++ m3 ++ m4) ++ tl) by (rewrite <- E; reflexivity). replace ((m1 ++ m2 ++ m3 ++ m4) ++ tl) with (m1 ++ m2 ++ (m3 ++ m4 ++ tl)) by (rewrite <- !app_assoc; reflexivity). rewrite (xr_app m1 m2 _ [1]) by (try lia; change (blen [1]) with 1; lia). cbn [rbind].
  set (x2 := xorl m2 [1]). assert (Lx2 : blen x2 = 1) by (unfold x2, blen in *; rewrite xorl_length; cbn [length]; lia). replace (m1 ++ x2 ++ m3 ++ m4 ++ tl) with ((m1 ++ x2) ++ m3 ++ (m4 ++ tl)) by (rewrite <- !app_assoc; reflexivity). rewrite (xr_app _ m3 _ r) by (rewrite ?blen_app; lia). cbn [rbind].
  set (x3 := xorl m3 r). assert (Lx3 : blen x3 = blen r) by (unfold x3, blen in *; rewrite xorl_length; lia). replace ((m1 ++ x2) ++ x3 ++ m4 ++ tl) with ((m1 ++ x2 ++ x3) ++ m4 ++ tl) by (rewrite <- !app_assoc; reflexivity). rewrite (xr_app _ m4 _ salt) by (rewrite ?blen_app; lia). cbn [rbind].
  set (x4 := xorl m4 salt). assert (Lx4 : blen x4 = blen salt) by (unfold x4, blen in *; rewrite xorl_length; lia). set (x := m1 ++ x2 ++ x3 ++ x4). assert (Lx : blen x = blen db) by (unfold x; rewrite !blen_app; lia).
  replace ((m1 ++ x2 ++ x3) ++ x4 ++ tl) with (x ++ tl) by (unfold x; rewrite <- !app_assoc; reflexivity). unfold tl.
  assert (T : match hid with [] => wr (x ++ h ++ ii ++ [t]) (n - 1) [188] | _ :: _ => rbind (wr (x ++ h ++ ii ++ [t]) (n - (blen hid + 1)) hid) (fun buf => wr buf (n - 1) [204]) end = ROk (x ++ h ++ hid ++ [match hid with [] => 188 | _ => 204 end])).
  { assert (W : forall v, wr (x ++ h ++ hid ++ [t]) (n - 1) [v] = ROk (x ++ h ++ hid ++ [v])).
    { intros v. replace (x ++ h ++ hid ++ [t]) with ((x ++ h ++ hid) ++ [t]) by (rewrite <- !app_assoc; reflexivity). rewrite (wr_end _ [t] [v]); [rewrite <- !app_assoc; reflexivity|rewrite !blen_app; lia|reflexivity]. }
    destruct hid as [|i0 hid'].
    - rewrite (blen_zero ii Lii). apply W.
    - replace (x ++ h ++ ii ++ [t]) with ((x ++ h) ++ ii ++ [t]) by (rewrite <- !app_assoc; reflexivity). rewrite (wr_app (x ++ h) ii [t]) by (rewrite ?blen_app; lia). cbn [rbind]. rewrite <- app_assoc. apply W. }
  rewrite T. cbn [rbind]. rewrite (crop_first bits x) by (auto; intros ->; change (blen []) with 0 in Lx; lia). eexists. exists pad. split; [reflexivity|]. split; auto. unfold pss_block. cbv zeta. fold h.
  assert (Ed : length (repeat 0 pad ++ 1 :: r ++ salt) = length db) by (apply blen_len; rewrite blen_app, blen_repeat, blen_cons, blen_app; lia). rewrite Ed. fold mk. split.
  - f_equal. f_equal. rewrite E. unfold x. change (1 :: r ++ salt) with ([1] ++ r ++ salt). rewrite !xorl_app by (apply blen_len; rewrite ?blen_repeat; change (blen [1]) with 1; lia). rewrite (xorl_comm (repeat 0 pad)), xorl_repeat0 by (unfold blen in *; lia). rewrite (xorl_comm [1]), (xorl_comm r), (xorl_comm salt). reflexivity.
  - rewrite <- En. change (blen (clear_top bits x ++ h ++ hid ++ [match hid with [] => 188 | _ :: _ => 204 end]) = n). rewrite !blen_app, clear_top_blen. change (blen [match hid with [] => 188 | _ :: _ => 204 end]) with 1. lia.
Qed.

Definition pad_ok (bits pad : Z) : bool := (minpad =? 0) || (minpad + lead bits <=? pad).
Lemma pad_ok_spec bits k : 0 <= bits -> 0 <= k < 2 ^ 63 -> minpad < 2 ^ 63 -> (minpad <= k) -> ((k - lead bits) mod 2 ^ 64 >=? minpad) = pad_ok bits k.
Proof.
  intros P K N G. unfold pad_ok. destruct (lead_bytes bits P) as (_ & R). rewrite Z.geb_leb. destruct (Z.eq_dec k 0) as [->|K0].
  - assert (minpad = 0) by lia. rewrite (proj2 (Z.eqb_eq minpad 0)) by auto. cbn [orb]. apply Z.leb_le. pose proof (Z.mod_pos_bound (0 - lead bits) (2 ^ 64) ltac:(lia)). lia.
  - rewrite Z.mod_small by lia. destruct (Z.eqb_spec minpad 0); cbn [orb].
    + apply Z.leb_le. lia.
    + apply eq_true_iff_eq. rewrite !Z.leb_le. lia.
Qed.
Lemma pssr_recover_value rep hid msg bits : 0 <= bits -> pssr_min hlen saltlen minpad (blen hid) <= bits -> blen rep = block_bytes bits -> blen rep < 2 ^ 61 -> minpad < 2 ^ 63 ->
  exists db h i t k y rest salt, rep = db ++ h ++ i ++ [t] /\ db <> [] /\ blen h = hlen /\ blen i = blen hid /\
  clear_top bits (xorl db (M h (length db))) = repeat 0 k ++ y :: rest ++ salt /\ blen salt = saltlen /\ (y = 0 -> rest = []) /\
  let ok := (y =? 1) && pad_ok bits (Z.of_nat k) && (blen rest <=? pssr_max hlen recovery saltlen minpad bits (blen hid)) in
  let message := if ok then rest else [] in
  pssr_recover H hlen gam recovery saltlen minpad rep hid msg bits = ROk (list_eqb (pss_hash H msg message salt) h && (ok && (list_eqb i hid && (t =? match hid with [] => 188 | _ => 204 end))), message).
Proof.
  intros P B Lb Lbig Lpad. pose proof (blen_nonneg hid) as Pi. pose proof (hlen_pos H hlen HH) as Ph. assert (Room : minpad + saltlen + hlen + blen hid + 2 <= block_bytes bits).
  { unfold pssr_min, block_bytes in *. apply Z.div_le_lower_bound; lia. }
  set (bl := block_bytes bits) in *. assert (Ebl : bits_to_bytes bits = bl) by reflexivity. clearbody bl.
  destruct (split_at rep (bl - (blen hid + 1) - hlen) ltac:(lia)) as (db & b1 & -> & Ldb & L1). rewrite blen_app in *. destruct (split_at b1 hlen ltac:(lia)) as (h & b2 & -> & Lh & L2). rewrite blen_app in *. destruct (split_at b2 (blen hid) ltac:(lia)) as (i & b3 & -> & Li & L3). rewrite blen_app in *. destruct (blen_one b3 ltac:(lia)) as (t & ->). change (blen [t]) with 1 in *.
  assert (Ndb : db <> []) by (intros ->; change (blen []) with 0 in *; lia).
  set (db' := clear_top bits (xorl db (M h (length db)))). assert (Ldb' : blen db' = blen db) by (unfold db'; rewrite clear_top_blen; apply (blen_xor gam M HM)).
  destruct (split_at db' (bl - (blen hid + 1) - hlen - saltlen - 1) ltac:(lia)) as (front & d1 & Ef & Lf & L4). destruct (split_at d1 1 ltac:(lia)) as (xx & salt & Ed1 & Lxx & Lsalt). destruct (blen_one xx Lxx) as (x & ->). subst d1. destruct (find_not_split front x) as (y & rest & Es & Z0). set (k := find_not 0 front) in *.
  exists db, h, i, t, k, y, rest, salt. do 4 (split; auto).
  assert (Edb : db' = repeat 0 k ++ y :: rest ++ salt) by (rewrite Ef, app_assoc, Es, <- app_assoc; reflexivity). split; [exact Edb|]. split; [lia|]. split; auto. cbv zeta.
  assert (Lk : Z.of_nat k + 1 + blen rest = bl - (blen hid + 1) - hlen - saltlen) by (apply (f_equal blen) in Es; rewrite !blen_app, blen_repeat, (blen_cons y rest) in Es; change (blen [x]) with 1 in Es; lia). pose proof (blen_nonneg rest) as Prest.
  unfold pssr_recover. cbv zeta. rewrite Ebl. rewrite !app_assoc. rewrite (rd1_app ((db ++ h) ++ i) t []) by (rewrite !blen_app; lia). cbn [rbind].
  rewrite <- !app_assoc. cbn [app].
  assert (T : forall tv, match hid with [] => ROk (t =? tv) | _ :: _ => rbind (rd (db ++ h ++ i ++ [t]) (bl - (blen hid + 1)) (blen hid)) (fun i => ROk (list_eqb i hid && (t =? tv))) end = ROk (list_eqb i hid && (t =? tv))).
  { intros tv. destruct hid as [|i0 hid']; [rewrite (blen_zero i Li); reflexivity|]. rewrite app_assoc. rewrite (rd_app (db ++ h) i) by (rewrite ?blen_app; lia). reflexivity. }
  rewrite T. cbn [rbind]. rewrite (rd_app db h) by lia. cbn [rbind]. rewrite (rd_start db) by lia. cbn [rbind]. rewrite (proj2 (proj2 HM db h)). cbn [rbind]. rewrite (wr_start db) by apply (blen_xor gam M HM). cbn [rbind].
  rewrite crop_first; [|auto|intros E0; apply (f_equal blen) in E0; rewrite (blen_xor gam M HM) in E0; change (blen []) with 0 in E0; lia]. fold db'. cbn [rbind].
  set (tl := h ++ i ++ [t]). replace (db' ++ tl) with (front ++ (x :: salt ++ tl)) by (rewrite Ef, <- !app_assoc; reflexivity). rewrite (rd_start front) by lia. cbn [rbind]. fold k.
  replace (front ++ x :: salt ++ tl) with (repeat 0 k ++ y :: (rest ++ salt ++ tl)) by (change (x :: salt ++ tl) with ([x] ++ salt ++ tl); rewrite (app_assoc front), Es, <- !app_assoc; reflexivity). rewrite rd1_app by (rewrite blen_repeat; reflexivity). cbn [rbind].
  replace (bl - (blen hid + 1) - hlen - saltlen - Z.of_nat k - 1) with (blen rest) by lia.
  assert (OK : (y =? 1) && ((Z.of_nat k - lead bits) mod 2 ^ 64 >=? minpad) && (blen rest <=? pssr_max hlen recovery saltlen minpad bits (blen hid)) = (y =? 1) && pad_ok bits (Z.of_nat k) && (blen rest <=? pssr_max hlen recovery saltlen minpad bits (blen hid))).
  { destruct (Z.leb_spec (blen rest) (pssr_max hlen recovery saltlen minpad bits (blen hid))) as [C|C]; [|rewrite !andb_false_r; reflexivity]. pose proof (pssr_room bits (blen hid) (blen rest) Pi Prest B C) as R2. change (block_bytes bits) with (bits_to_bytes bits) in R2. rewrite pad_ok_spec by lia. reflexivity. }
  rewrite OK. set (ok := (y =? 1) && pad_ok bits (Z.of_nat k) && (blen rest <=? pssr_max hlen recovery saltlen minpad bits (blen hid))) in *.
  assert (RM : (if ok then rd (repeat 0 k ++ y :: rest ++ salt ++ tl) (Z.of_nat k + 1) (blen rest) else ROk []) = ROk (if ok then rest else [])).
  { destruct ok; auto. change (y :: rest ++ salt ++ tl) with ([y] ++ rest ++ salt ++ tl). rewrite (app_assoc _ [y]). apply rd_app; auto. rewrite blen_app, blen_repeat. reflexivity. }
  rewrite RM. cbn [rbind]. set (message := if ok then rest else []).
  replace (repeat 0 k ++ y :: rest ++ salt ++ tl) with ((repeat 0 k ++ [y] ++ rest) ++ salt ++ tl) by (rewrite <- !app_assoc; reflexivity). rewrite (rd_app _ salt) by (rewrite ?blen_app, ?blen_repeat; change (blen [y]) with 1; lia). cbn [rbind].
  assert (Lmsg : 0 <= blen message < 2 ^ 61) by (unfold message; destruct ok; [|change (blen []) with 0]; lia). rewrite pssr_c_spec by auto. change (H (be_bytes 8 (8 * blen message) ++ message ++ H msg ++ salt)) with (pss_hash H msg message salt).
  destruct recovery eqn:Er; cbn [negb andb]; auto. destruct (Z.eqb_spec (blen message) 0) as [Z|NZ]; [rewrite andb_false_r; auto|]. exfalso. apply NZ. unfold message, ok in *. unfold pssr_max in *. destruct (Z.leb_spec (blen rest) 0); [|rewrite andb_false_r; reflexivity]. destruct ((y =? 1) && pad_ok bits (Z.of_nat k) && true); [lia|reflexivity].
Qed.

Theorem pssr_recover_exact rep hid msg bits m : 0 <= bits -> pssr_min hlen saltlen minpad (blen hid) <= bits -> blen rep = block_bytes bits -> blen rep < 2 ^ 61 -> minpad < 2 ^ 63 -> clear_top bits rep = rep -> 
  (exists v, pssr_recover H hlen gam recovery saltlen minpad rep hid msg bits = ROk v) /\
  (pssr_recover H hlen gam recovery saltlen minpad rep hid msg bits = ROk (true, m) <->
   exists salt pad, blen salt = saltlen /\ blen m <= pssr_max hlen recovery saltlen minpad bits (blen hid) /\ (minpad = 0 \/ minpad + lead bits <= Z.of_nat pad) /\ pss_block H M bits hid msg m salt pad rep).
Proof.
  intros P B Lb Lbig Lpad Ct. destruct (pssr_recover_value rep hid msg bits P B Lb Lbig Lpad) as (db & h & i & t & k & y & rest & salt & -> & Ndb & Lh & Li & Edb & Ls & Z0 & V). cbv zeta in V. rewrite V. split; [eauto|]. clear V.
  rewrite clear_top_app in Ct by auto. apply app_inj_pivot_len in Ct as (Ct & _); [|apply clear_top_length]. split.
  - set (ok := (y =? 1) && pad_ok bits (Z.of_nat k) && (blen rest <=? pssr_max hlen recovery saltlen minpad bits (blen hid))). destruct ok eqn:Ok; [|rewrite andb_false_r; discriminate]. intros E. injection E as E <-. cbn [andb] in E. apply andb_prop in E as (E1 & E). apply andb_prop in E as (E2 & E3). apply list_eqb_eq in E1, E2. apply Z.eqb_eq in E3. subst h i t.
    unfold ok in Ok. apply andb_prop in Ok as (Ok & O3). apply andb_prop in Ok as (O1 & O2). apply Z.eqb_eq in O1. subst y. apply Z.leb_le in O3. exists salt, k. split; auto. split; auto. split.
    { unfold pad_ok in O2. apply orb_prop in O2 as [O2|O2]; [apply Z.eqb_eq in O2|apply Z.leb_le in O2]; auto. }
    unfold pss_block. cbv zeta. split; auto. f_equal. rewrite <- Edb. rewrite clear_top_xor. rewrite clear_top_length, xorl_length, M_len, Nat.min_id. rewrite (xor_self_M gam M HM). auto.
  - intros (salt' & pad & Ls' & Lm & Mp & Pb & _). cbv zeta in Pb. set (h' := pss_hash H msg m salt') in *. set (db' := repeat 0 pad ++ 1 :: m ++ salt') in *.
    assert (Lc : length db = length (clear_top bits (xorl db' (M h' (length db'))))).
    { apply (f_equal blen) in Pb. rewrite !blen_app in Pb. assert (blen h' = hlen) by apply HH. apply blen_len. change (blen [t]) with 1 in Pb. change (blen [match hid with [] => 188 | _ :: _ => 204 end]) with 1 in Pb. lia. }
    apply app_inj_pivot_len in Pb as (Q1 & Pb); auto. apply app_inj_pivot_len in Pb as (Q2 & Pb); [|apply blen_len; rewrite Lh; symmetry; apply HH]. apply app_inj_pivot_len in Pb as (Q3 & Pb); [|apply blen_len; auto]. injection Pb as Q4.
    rewrite clear_top_length, xorl_length, M_len, Nat.min_id in Lc.
    assert (Q5 : repeat 0 k ++ y :: rest ++ salt = db'). { rewrite <- Edb, Q1, Q2. rewrite clear_top_xor. rewrite clear_top_length, xorl_length, M_len, Nat.min_id. rewrite (xor_self_M gam M HM). apply clear_top_zeros. auto. }
    unfold db' in Q5. change (y :: rest ++ salt) with ((y :: rest) ++ salt) in Q5. change (1 :: m ++ salt') with ((1 :: m) ++ salt') in Q5. rewrite !app_assoc in Q5.
    assert (Q6 : repeat 0 k ++ y :: rest = repeat 0 pad ++ 1 :: m /\ salt = salt'). { apply app_inj_pivot_len; auto. apply (f_equal blen) in Q5. apply blen_len. rewrite (blen_app _ salt), (blen_app _ salt') in Q5. lia. }
    destruct Q6 as (Q6 & ->). apply zeros_unique in Q6 as (-> & -> & ->); auto. unfold pad_ok. change (1 =? 1) with true. cbn [andb].
    assert (G : (minpad =? 0) || (minpad + lead bits <=? Z.of_nat pad) = true) by (destruct Mp as [->|Mp]; [reflexivity|]; apply Z.leb_le in Mp; rewrite Mp; apply orb_true_r). rewrite G. apply Z.leb_le in Lm. rewrite Lm. cbn [andb]. rewrite Q4, Q2, Q3, Z.eqb_refl, !(proj2 (list_eqb_eq _ _) eq_refl). reflexivity.
Qed.
Lemma pss_block_fits bits hid msg r salt pad rep : pss_block H M bits hid msg r salt pad rep -> clear_top bits rep = rep.
Proof.
  intros (-> & _). set (x := xorl _ _). rewrite clear_top_app, clear_top_idem; auto. intros E. apply (f_equal (@length _)) in E. rewrite clear_top_length in E. unfold x in E. rewrite xorl_length, M_len, Nat.min_id, app_length in E. cbn in E. lia.
Qed.
End Pssr.

(* ------------------------------------------------------------------ verification of a representative, and blocks that are too short *)
Lemma signature_block_unique bits hid d a b : pkcs_signature_block bits hid d a -> pkcs_signature_block bits hid d b -> a = b.
Proof.
  intros (n & _ & -> & L) (n' & _ & -> & L'). assert (n = n') as <-; auto. rewrite <- L' in L. change (blen (framed bits (1 :: repeat 255 n ++ 0 :: hid ++ d)) = blen (framed bits (1 :: repeat 255 n' ++ 0 :: hid ++ d))) in L. rewrite !framed_lead, !blen_cons, !blen_app, !blen_repeat in L. lia.
Qed.
Theorem pkcs_verify_exact H hlen hid msg bits buf rep : 0 <= bits -> hash_of H hlen -> pkcs_sig_min (blen hid) hlen <= bits -> blen buf = block_bytes bits -> blen rep = block_bytes bits ->
  exists v, pkcs_sig_verify H hlen rep hid msg bits buf = ROk v /\ (v = true <-> pkcs_signature_block bits hid (H msg) rep).
Proof.
  intros P HH Mn Lb Lr. unfold pkcs_sig_verify. destruct (pkcs_signature_spec H hlen hid msg bits buf P HH Mn Lb) as (r & -> & G). cbn [rbind]. pose proof G as (n & _ & _ & Lg). change (blen r = block_bytes bits) in Lg. rewrite rd_all by lia. cbn [rbind]. eexists. split; [reflexivity|]. rewrite list_eqb_eq. split; [intros ->; auto|]. intros G'. eapply signature_block_unique; eauto.
Qed.
Theorem oaep_short_unpad H hlen gam M block label bits : hash_of H hlen -> masks_with gam M -> 0 <= bits -> bits / 8 < 2 * hlen -> blen block = block_bytes bits -> oaep_unpad H hlen gam block label bits = RMemory.
Proof.
  intros HH HM P N Lb. unfold oaep_unpad. pose proof (hlen_pos H hlen HH) as Ph. destruct (start_rd bits block P Lb) as (b0 & rest & -> & L0 & Lr & ->). cbn [rbind]. pose proof (Z.div_pos bits 8 P ltac:(lia)) as Pn. set (n := bits / 8) in *. clearbody n. rewrite (rd_end b0 rest) by lia. cbn [rbind].
  destruct (Z.le_gt_cases hlen n) as [C|C].
  - destruct (split_at rest hlen ltac:(lia)) as (s & d & -> & Ls & Ld). rewrite blen_app in *. rewrite (rd_start s d) by lia. cbn [rbind]. rewrite (rd_end s d) by lia. cbn [rbind]. rewrite (proj2 (proj2 HM s d)). cbn [rbind]. set (s' := xorl s (M d (length s))). rewrite (proj2 (proj2 HM d s')). cbn [rbind]. unfold rd at 1. destruct (Z.leb_spec 0 (n - hlen - hlen)); [lia|]. rewrite andb_false_r. reflexivity.
  - unfold rd at 1. destruct (Z.leb_spec (0 + hlen) (blen rest)); [lia|]. rewrite andb_false_r. reflexivity.
Qed.
Lemma rd_range buf off n : (exists l, rd buf off n = ROk l /\ blen l = n) \/ rd buf off n = RMemory.
Proof. unfold rd. destruct (Z.leb_spec 0 off), (Z.leb_spec 0 n), (Z.leb_spec (off + n) (blen buf)); cbn [andb]; auto. left. eexists. split; [reflexivity|]. unfold blen in *. rewrite firstn_length, skipn_length. lia. Qed.
Theorem oaep_short_pad H hlen gam seed label m bits buf : hash_of H hlen -> 0 <= bits -> bits / 8 < 2 * hlen + 1 + blen m -> blen buf = block_bytes bits -> oaep_pad H hlen gam seed label m bits buf = RMemory.
Proof.
  intros HH P N Lb. unfold oaep_pad. destruct (start_wr bits buf P Lb) as (b0 & rest & -> & Hb0 & L0 & Lr). cbn [rbind]. destruct (wr (b0 ++ rest) (lead bits + hlen) (H label)) as [b| | | |] eqn:E; unfold wr in E; destruct ((0 <=? lead bits + hlen) && (lead bits + hlen + blen (H label) <=? blen (b0 ++ rest))); try discriminate; cbn [rbind]; auto.
  unfold fill. destruct (Z.leb_spec 0 (bits / 8 - hlen - hlen - blen m - 1)); [lia|]. reflexivity.
Qed.
