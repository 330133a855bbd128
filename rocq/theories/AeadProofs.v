(** Proofs about AeadModel: the framework once, for any mode that obeys [laws], then the four modes. *)
From Coq Require Import ZArith List Bool Arith Lia.
From Verif Require Import Base Blocks HashModel ModesModel MacModel MacSpec MacProofs Poly1305Model Poly1305Spec Poly1305Proofs
  AeadModel AeadSpec.
Import ListNotations.
Local Open Scope Z_scope.

Section Framework.
  Context {M : Type}.
  Variable md : mode M.
  Variable id : ideal.
  Variable forward : bool.
  Variable bl : nat.                                   (* length of the buffer *)
  Variable Kd : M -> Prop.                             (* ready for a new message *)
  Variable pre : option (Z * Z) -> list Z.             (* authenticated before the header *)
  Variable Hd : list Z -> option (Z * Z) -> list Z -> M -> Prop.
  Variable Bd : list Z -> option (Z * Z) -> list Z -> nat -> list Z -> M -> Prop.
  Variable Cd : list Z -> list Z -> list Z -> M -> Prop.

  Definition same_base (b b' : base M) : Prop := b_state b' = b_state b /\ b_hdr b' = b_hdr b /\ b_msg b' = b_msg b /\ b_ftr b' = b_ftr b.
  Definition absd (R : list Z -> M -> Prop) (b : base M) (s : list Z) : Prop :=
    exists p, s = p ++ firstn (b_num b) (b_buf b) /\ (length p mod md_bs md = 0)%nat /\ (b_num b < md_bs md)%nat /\ R p (b_m b) /\ length (b_buf b) = bl /\ bytes (b_buf b).
  Definition blocks_law (R : list Z -> M -> Prop) : Prop := forall p m d, R p m -> (length p mod md_bs md = 0)%nat -> (md_bs md <= length d)%nat -> bytes d ->
    snd (md_blocks md m d) = (length d mod md_bs md)%nat /\ R (p ++ firstn (length d - length d mod md_bs md) d) (fst (md_blocks md m d)).
  Definition wfb (b : base M) : Prop := (b_num b < md_bs md)%nat /\ length (b_buf b) = bl /\ bytes (b_buf b) /\ Kd (b_m b).

  Record laws : Prop := {
    l_bs : (0 < md_bs md)%nat; l_bl : md_bs md = 1%nat \/ bl = md_bs md;
    l_plain : md_on_plain md = i_on_plain id; l_digest : md_digest md = i_digest id; l_iv : forall n, md_iv_ok md n = i_iv_ok id n;
    l_maxh : md_maxh md = i_maxh id; l_maxh0 : 0 <= i_maxh id; l_maxm : forall iv l s m, Hd iv l s m -> 0 <= i_maxm id iv < 2 ^ 64;
    l_maxm2 : forall iv l hdr n s m, Bd iv l hdr n s m -> 0 <= i_maxm id iv < 2 ^ 64;
    l_start : forall b iv, Kd (b_m b) -> length (b_buf b) = bl -> bytes (b_buf b) -> b_num b = 0%nat -> i_iv_ok id (length iv) = true -> bytes iv ->
      same_base b (md_resync md b iv) /\ md_maxm md (b_m (md_resync md b iv)) = i_maxm id iv /\
      (i_fresh id = true -> wfb (md_resync md b iv)) /\
      (i_needs id = false -> absd (Hd iv None) (md_resync md b iv) (pre None));
    l_specify : forall b iv h m, Kd (b_m b) -> length (b_buf b) = bl -> bytes (b_buf b) -> b_num b = 0%nat -> i_iv_ok id (length iv) = true -> bytes iv ->
      0 <= h <= i_maxh id -> h < 2 ^ 64 -> 0 <= m <= i_maxm id iv ->
      let b2 := md_specify md (set_state (md_resync md b iv) SIVSet) h m in
      b_state b2 = SIVSet /\ b_hdr b2 = b_hdr b /\ b_msg b2 = b_msg b /\ b_ftr b2 = b_ftr b /\
      (i_fresh id = true -> wfb b2) /\
      absd (Hd iv (Some (h, m))) b2 (pre (Some (h, m)));
    l_hblocks : forall iv l, blocks_law (Hd iv l);
    l_hmax : forall iv l s m, Hd iv l s m -> md_maxm md m = i_maxm id iv;
    l_last_header : forall b iv l hdr, absd (Hd iv l) b (pre l ++ hdr) -> b_hdr b = len64 hdr -> bytes hdr ->
      if right_h id l hdr then exists b2, md_last_header md b = Some b2 /\ same_base b b2 /\ length (b_buf b2) = bl /\ bytes (b_buf b2) /\
        Bd iv l hdr 0 [] (b_m b2)
      else md_last_header md b = None;
    l_bblocks : forall iv l hdr n, blocks_law (Bd iv l hdr n);
    l_bmax : forall iv l hdr n s m, Bd iv l hdr n s m -> md_maxm md m = i_maxm id iv;
    l_cipher : forall iv l hdr n s m d, Bd iv l hdr n s m -> Z.of_nat n + len64 d <= i_maxm id iv -> bytes d ->
      snd (md_cipher md m d) = i_crypt id iv n d /\ bytes (i_crypt id iv n d) /\ Bd iv l hdr (n + length d) s (fst (md_cipher md m d));
    l_last_conf : forall b iv l hdr txt, absd (Bd iv l hdr (length txt)) b txt -> b_hdr b = len64 hdr -> b_msg b = len64 txt ->
      len64 txt <= i_maxm id iv -> bytes hdr -> bytes txt ->
      if right_m id l txt then exists b2, md_last_conf md b = Some b2 /\ same_base b b2 /\ length (b_buf b2) = bl /\ bytes (b_buf b2) /\
        (right_h id l hdr = true -> len64 hdr <= i_maxh id -> Cd iv hdr txt (b_m b2))
      else md_last_conf md b = None;
    l_bright : forall iv l hdr n s m, Bd iv l hdr n s m -> right_h id l hdr = true;
    l_last_footer : forall b iv hdr txt n, Cd iv hdr txt (b_m b) -> b_hdr b = len64 hdr -> b_msg b = len64 txt -> len64 hdr < 2 ^ 64 ->
      len64 txt <= i_maxm id iv -> (n <= i_digest id)%nat ->
      snd (md_last_footer md b n) = firstn n (i_tag id iv hdr txt) /\ same_base b (fst (md_last_footer md b n)) /\
      b_buf (fst (md_last_footer md b n)) = b_buf b /\ Kd (b_m (fst (md_last_footer md b n)));
    (* a mode that may be restarted keeps ready *)
    k_blocks : i_fresh id = true -> forall m d, Kd m -> bytes d -> Kd (fst (md_blocks md m d));
    k_blocks_lo : i_fresh id = true -> forall m d, Kd m -> (snd (md_blocks md m d) < md_bs md)%nat;
    k_header : i_fresh id = true -> forall b b2, wfb b -> md_last_header md b = Some b2 -> same_base b b2 /\ wfb b2;
    k_conf : i_fresh id = true -> forall b b2, wfb b -> md_last_conf md b = Some b2 -> wfb b2;
    k_footer : i_fresh id = true -> forall b n, wfb b -> wfb (fst (md_last_footer md b n));
    k_cipher : i_fresh id = true -> forall m d, Kd m -> bytes d -> Kd (fst (md_cipher md m d)) /\ bytes (snd (md_cipher md m d)) /\ length (snd (md_cipher md m d)) = length d }.

  Hypothesis L : laws.

  Lemma absd_tail : forall R b s d, blocks_law R -> absd R b s -> b_num b = 0%nat -> bytes d -> absd R (auth_tail md b d) (s ++ d).
  Proof.
    intros R b s d HR (p & -> & Hp & Hn & Rp & Hb & Hbb) Hz Hd0. rewrite Hz in *. cbn [firstn]. rewrite app_nil_r.
    pose proof (l_bs L) as Hbs. unfold auth_tail.
    destruct (Nat.leb_spec (md_bs md) (length d)) as [Hl|Hl].
    - destruct (HR p (b_m b) d Rp Hp Hl Hd0) as [X1 X2]. destruct (md_blocks md (b_m b) d) as [m lo]. cbn [fst snd] in *. subst lo.
      set (r := (length d mod md_bs md)%nat) in *. assert (Hr : (r < md_bs md)%nat) by (apply Nat.mod_upper_bound; lia).
      assert (Lr : length (skipn (length d - r) d) = r) by (rewrite skipn_length; lia).
      assert (Hw : (0 + length (skipn (length d - r) d) <= length (b_buf b))%nat) by (rewrite Lr; destruct (l_bl L); lia).
      exists (p ++ firstn (length d - r) d). cbn [b_num b_buf b_m set_buf set_m].
      split; [|split; [|split; [|split; [|split]]]].
      + pose proof (write_firstn 0 _ (b_buf b) Hw) as X. cbn [Nat.add] in X. rewrite X. cbn [firstn app]. rewrite <- !app_assoc, firstn_skipn. reflexivity.
      + rewrite app_length, firstn_length_le by lia. rewrite Nat.add_mod, Hp by lia. cbn [Nat.add]. rewrite Nat.mod_mod by lia.
        assert (E : (length d - r = length d / md_bs md * md_bs md)%nat) by (pose proof (Nat.div_mod (length d) (md_bs md)); unfold r; lia).
        rewrite E. apply Nat.mod_mul. lia.
      + rewrite Lr. exact Hr.
      + exact X2.
      + rewrite write_length by exact Hw. exact Hb.
      + apply bytes_write; auto using bytes_skipn.
    - assert (Hw : (0 + length d <= length (b_buf b))%nat) by (destruct (l_bl L); lia).
      exists p. cbn [b_num b_buf b_m set_buf]. pose proof (write_firstn 0 _ (b_buf b) Hw) as X. cbn [Nat.add] in X. rewrite X. cbn [firstn app].
      rewrite write_length by exact Hw. repeat split; auto. apply bytes_write; auto.
  Qed.
  Lemma absd_data : forall R b s d, blocks_law R -> absd R b s -> bytes d -> absd R (authenticate_data md b d) (s ++ d).
  Proof.
    intros R b s d HR Ha Hd0. unfold authenticate_data. destruct (Nat.eqb_spec (length d) 0) as [E|E].
    { destruct d; [|discriminate E]. rewrite app_nil_r. exact Ha. }
    destruct (Nat.ltb_spec 0 (b_num b)) as [Hn|Hn]; [|apply absd_tail; auto; lia].
    destruct Ha as (p & -> & Hp & Hnb & Rp & Hb & Hbb). assert (Ebl : bl = md_bs md) by (destruct (l_bl L); lia).
    destruct (Nat.leb_spec (md_bs md) (b_num b + length d)) as [Hl|Hl].
    - set (t := (md_bs md - b_num b)%nat). set (buf := write (b_num b) (firstn t d) (b_buf b)).
      assert (Lt : length (firstn t d) = t) by (rewrite firstn_length_le; unfold t; lia).
      assert (Eb : buf = firstn (b_num b) (b_buf b) ++ firstn t d) by (apply write_all; rewrite Lt; unfold t; lia).
      assert (Lb : length buf = md_bs md) by (rewrite Eb, app_length, firstn_length_le, Lt by lia; unfold t; lia).
      assert (Bb : bytes buf) by (rewrite Eb, bytes_app; auto using bytes_firstn).
      rewrite firstn_all2 by lia.
      destruct (HR p (b_m b) buf Rp Hp ltac:(lia) Bb) as [X1 X2]. rewrite Lb, Nat.mod_same, Nat.sub_0_r in X2 by (pose proof (l_bs L); lia).
      rewrite firstn_all2 in X2 by lia. destruct (md_blocks md (b_m b) buf) as [m lo]. cbn [fst] in X2.
      replace ((p ++ firstn (b_num b) (b_buf b)) ++ d) with ((p ++ buf) ++ skipn t d) by (rewrite Eb, <- !app_assoc, firstn_skipn; reflexivity).
      apply absd_tail; auto using bytes_skipn. exists (p ++ buf). cbn [b_num b_buf b_m set_m set_buf firstn].
      rewrite app_nil_r. repeat split; auto; try lia. rewrite app_length, Lb, Nat.add_mod, Hp, Nat.mod_same by (pose proof (l_bs L); lia).
      apply Nat.mod_0_l. pose proof (l_bs L); lia.
    - assert (Hw : (b_num b + length d <= length (b_buf b))%nat) by lia.
      exists p. cbn [b_num b_buf b_m set_buf]. rewrite write_firstn, write_length, app_assoc by exact Hw. repeat split; auto. apply bytes_write; auto.
  Qed.
  Lemma tail_same : forall b d, same_base b (auth_tail md b d).
  Proof. intros b d. unfold auth_tail. destruct (Nat.leb _ _); [destruct (md_blocks md (b_m b) d)|]; repeat split. Qed.
  Lemma data_same : forall b d, same_base b (authenticate_data md b d).
  Proof.
    intros b d. unfold authenticate_data. destruct (Nat.eqb _ _); [repeat split|]. destruct (Nat.ltb _ _); [|apply tail_same].
    destruct (Nat.leb _ _); [|repeat split]. destruct (md_blocks md _ _) as [m lo].
    set (b1 := set_m _ m). destruct (tail_same b1 (skipn (md_bs md - b_num b) d)) as (A & B & C & D). unfold same_base. rewrite A, B, C, D. repeat split.
  Qed.

  (** ** Keeping ready for a new message *)
  Section Fresh.
    Hypothesis Hf : i_fresh id = true.
    Lemma w_tail : forall b d, wfb b -> bytes d -> wfb (auth_tail md b d).
    Proof.
      intros b d (W1 & W2 & W3 & W4) Hd0. pose proof (l_bs L) as Hbs. unfold auth_tail. destruct (Nat.leb_spec (md_bs md) (length d)) as [Hl|Hl].
      - pose proof (k_blocks L Hf (b_m b) d W4 Hd0) as X1. pose proof (k_blocks_lo L Hf (b_m b) d W4) as X2.
        destruct (md_blocks md (b_m b) d) as [m lo]. cbn [fst snd] in *.
        assert (Lr : length (skipn (length d - lo) d) = lo) by (rewrite skipn_length; lia).
        assert (Hw : (0 + length (skipn (length d - lo) d) <= length (b_buf b))%nat) by (rewrite Lr; destruct (l_bl L); lia).
        unfold wfb. cbn [b_num b_buf b_m set_buf set_m]. rewrite write_length by exact Hw. repeat split; auto; [lia|].
        apply bytes_write; auto using bytes_skipn.
      - assert (Hw : (0 + length d <= length (b_buf b))%nat) by (destruct (l_bl L); lia).
        unfold wfb. cbn [b_num b_buf b_m set_buf]. rewrite write_length by exact Hw. repeat split; auto. apply bytes_write; auto.
    Qed.
    Lemma w_data : forall b d, wfb b -> bytes d -> wfb (authenticate_data md b d).
    Proof.
      intros b d W Hd0. pose proof (l_bs L) as Hbs. unfold authenticate_data. destruct (Nat.eqb_spec (length d) 0); [exact W|].
      destruct (Nat.ltb_spec 0 (b_num b)) as [Hn|Hn]; [|apply w_tail; auto]. destruct W as (W1 & W2 & W3 & W4).
      assert (Ebl : bl = md_bs md) by (destruct (l_bl L); lia).
      destruct (Nat.leb_spec (md_bs md) (b_num b + length d)) as [Hl|Hl].
      - set (t := (md_bs md - b_num b)%nat). set (buf := write (b_num b) (firstn t d) (b_buf b)).
        assert (Lt : length (firstn t d) = t) by (rewrite firstn_length_le; unfold t; lia).
        assert (Lb : length buf = bl) by (unfold buf; rewrite write_length; auto; rewrite Lt; unfold t; lia).
        assert (Bb : bytes buf) by (apply bytes_write; auto using bytes_firstn).
        pose proof (k_blocks L Hf (b_m b) (firstn (md_bs md) buf) W4 (bytes_firstn _ _ Bb)) as X1.
        destruct (md_blocks md (b_m b) (firstn (md_bs md) buf)) as [m lo]. apply w_tail; [|auto using bytes_skipn].
        unfold wfb. cbn [b_num b_buf b_m set_m set_buf]. cbn [fst] in X1. repeat split; auto.
      - unfold wfb. cbn [b_num b_buf b_m set_buf]. rewrite write_length by lia. repeat split; auto. apply bytes_write; auto.
    Qed.
    Lemma w_body : forall b d, wfb b -> bytes d -> wfb (fst (process_body md b d)).
    Proof.
      intros b d W Hd0. unfold process_body. destruct (b_state b); try exact W.
      - pose proof (w_data b d W Hd0) as W1. destruct (k_cipher L Hf (b_m (authenticate_data md b d)) d) as (X1 & X2 & X3); [apply W1|auto|].
        destruct (md_cipher md _ d) as [m out]. cbn [fst snd] in *. destruct W1 as (W1 & W2 & W3 & W4). repeat split; auto.
      - destruct (k_cipher L Hf (b_m b) d) as (X1 & X2 & X3); [apply W|auto|]. destruct (md_cipher md (b_m b) d) as [m out]. cbn [fst snd] in *.
        apply w_data; auto. destruct W as (W1 & W2 & W3 & W4). repeat split; auto.
    Qed.
    Lemma w_set : forall b s n h x y, wfb b -> (n < md_bs md)%nat -> wfb (mkB s (b_buf b) n h x y (b_m b)).
    Proof. intros b s n h x y (W1 & W2 & W3 & W4) Hn. repeat split; auto. Qed.
    Lemma w_update : forall b d, wfb b -> bytes d -> wfb (fst (update md b d)).
    Proof.
      intros b d W Hd0. pose proof (l_bs L) as Hbs. unfold update. destruct (Nat.eqb _ _); [exact W|].
      assert (X : forall b1, md_last_conf md b = Some b1 -> wfb (add_ftr (authenticate_data md (set_state (set_num b1 0) SFooter) d) (len64 d))).
      { intros b1 E. pose proof (k_conf L Hf b b1 W E) as W1. pose proof (w_data (set_state (set_num b1 0) SFooter) d (w_set b1 _ _ _ _ _ W1 Hbs) Hd0) as W2.
        apply w_set; [exact W2|apply W2]. }
      destruct (b_state b); try exact W.
      - pose proof (w_data b d W Hd0) as W2. apply w_set; [exact W2|apply W2].
      - destruct (md_last_conf md b) as [b1|]; [apply X; auto|exact W].
      - destruct (md_last_conf md b) as [b1|]; [apply X; auto|exact W].
      - pose proof (w_data b d W Hd0) as W2. apply w_set; [exact W2|apply W2].
    Qed.
    Lemma w_process : forall b d, wfb b -> bytes d -> wfb (fst (process md forward b d)).
    Proof.
      intros b d W Hd0. pose proof (l_bs L) as Hbs. unfold process. destruct (_ && _); [exact W|].
      assert (W1 : wfb (add_msg b (len64 d))) by (apply w_set; [exact W|apply W]).
      destruct (b_state (add_msg b (len64 d))); try exact W1; try (apply w_body; auto).
      destruct (md_last_header md (add_msg b (len64 d))) as [b2|] eqn:E; [|exact W1].
      apply w_body; auto. destruct (k_header L Hf _ _ W1 E) as [_ W2]. apply (w_set b2); auto.
    Qed.
    Lemma w_footer : forall b n, wfb b -> wfb (fst (final_footer md b n)).
    Proof.
      intros b n W. pose proof (l_bs L) as Hbs. unfold final_footer. pose proof (k_footer L Hf b n W) as X. destruct (md_last_footer md b n) as [b1 t]. cbn [fst] in *. apply (w_set b1); auto.
    Qed.
    Lemma w_conf : forall b n, wfb b -> wfb (fst (final_conf md b n)).
    Proof.
      intros b n W. pose proof (l_bs L) as Hbs. unfold final_conf. destruct (md_last_conf md b) as [b1|] eqn:E; [|exact W].
      apply w_footer. apply (w_set b1); auto. exact (k_conf L Hf b b1 W E).
    Qed.
    Lemma w_final : forall b n, wfb b -> wfb (fst (truncated_final md b n)).
    Proof.
      intros b n W. pose proof (l_bs L) as Hbs. unfold truncated_final. destruct (Nat.ltb _ _); [exact W|]. destruct (_ <? _); [exact W|]. destruct (_ <? _); [exact W|].
      destruct (b_state b); try exact W; try (apply w_conf; auto); try (apply w_footer; auto).
      destruct (md_last_header md b) as [b1|] eqn:E; [|exact W]. apply w_conf. apply (w_set b1); auto. apply (k_header L Hf _ _ W E).
    Qed.
  End Fresh.

  (** ** The history *)
  Definition body_state : astate := if Bool.eqb (i_on_plain id) forward then SUntransformed else STransformed.
  Definition inv (ph : phase) (b : base M) : Prop :=
    (i_fresh id = true -> wfb b) /\
    match ph with
    | PNone ex => b_state b = SKeySet /\ length (b_buf b) = bl /\ bytes (b_buf b) /\ Kd (b_m b) /\ (ex = true -> b_hdr b <= i_maxh id /\ b_ftr b = 0)
    | PHead iv l hdr => b_state b = SIVSet /\ absd (Hd iv l) b (pre l ++ hdr) /\ bytes hdr /\
        b_hdr b = len64 hdr /\ len64 hdr < 2 ^ 64 /\ b_msg b = 0 /\ b_ftr b = 0
    | PBody iv l hdr inp => b_state b = body_state /\ absd (Bd iv l hdr (length inp)) b (i_text id forward iv inp) /\ bytes hdr /\
        bytes inp /\ bytes (i_text id forward iv inp) /\ b_hdr b = len64 hdr /\ len64 hdr < 2 ^ 64 /\ b_msg b = len64 inp /\ len64 inp <= i_maxm id iv /\ b_ftr b = 0
    | PFoot n => b_state b = SFooter /\ b_ftr b = n /\ 0 < n < 2 ^ 64
    | PBroken => True
    end.

  Lemma len64_nonneg : forall d, 0 <= len64 d.
  Proof. intros. unfold len64. lia. Qed.
  Lemma len64_app : forall a b, len64 (a ++ b) = len64 a + len64 b.
  Proof. intros. unfold len64. rewrite app_length. lia. Qed.
  Lemma len64_pos : forall d : list Z, length d <> 0%nat -> 0 < len64 d.
  Proof. intros. unfold len64. lia. Qed.
  Lemma crypt_length : forall iv n d, length (i_crypt id iv n d) = length d.
  Proof. intros. unfold i_crypt. rewrite xorl_length, map_length, seq_length. lia. Qed.
  Lemma text_length : forall iv d, length (i_text id forward iv d) = length d.
  Proof. intros. unfold i_text. destruct (Bool.eqb _ _); [reflexivity|apply crypt_length]. Qed.
  Lemma text_len64 : forall iv d, len64 (i_text id forward iv d) = len64 d.
  Proof. intros. unfold len64. rewrite text_length. reflexivity. Qed.
  Lemma crypt_app : forall iv n a b, i_crypt id iv n (a ++ b) = i_crypt id iv n a ++ i_crypt id iv (n + length a) b.
  Proof.
    intros. unfold i_crypt. rewrite app_length, seq_app, map_app, xorl_app; [reflexivity|]. rewrite map_length, seq_length. reflexivity.
  Qed.
  Lemma text_app : forall iv a b, i_text id forward iv (a ++ b) = i_text id forward iv a ++
    (if Bool.eqb (i_on_plain id) forward then b else i_crypt id iv (length a) b).
  Proof. intros. unfold i_text. destruct (Bool.eqb _ _); [reflexivity|]. rewrite crypt_app. reflexivity. Qed.
  Lemma right_m_len : forall l a b, length a = length b -> right_m id l a = right_m id l b.
  Proof. intros l a b H. unfold right_m, len64. rewrite H. reflexivity. Qed.

  (** The two transforming states. *)
  Lemma body_step : forall b iv l hdr inp d, b_state b = body_state -> absd (Bd iv l hdr (length inp)) b (i_text id forward iv inp) -> bytes d ->
    len64 inp + len64 d <= i_maxm id iv ->
    let '(b2, o) := process_body md b d in
    o = OBytes (i_crypt id iv (length inp) d) /\ same_base b b2 /\ absd (Bd iv l hdr (length (inp ++ d))) b2 (i_text id forward iv (inp ++ d)) /\
    bytes (i_crypt id iv (length inp) d).
  Proof.
    intros b iv l hdr inp d Hs Ha Hd0 Hm. unfold process_body. rewrite Hs. unfold body_state in *. rewrite text_app, app_length.
    destruct (Bool.eqb (i_on_plain id) forward).
    - pose proof (absd_data _ _ _ d (l_bblocks L iv l hdr (length inp)) Ha Hd0) as X. pose proof (data_same b d) as S1.
      destruct X as (p & X1 & X2 & X3 & X4 & X5 & X6).
      destruct (l_cipher L iv l hdr (length inp) _ _ d X4 ltac:(unfold len64 in *; lia) Hd0) as (Y1 & Y2 & Y3).
      destruct (md_cipher md (b_m (authenticate_data md b d)) d) as [m out]. cbn [fst snd] in *. subst out. split; [reflexivity|]. split; [exact S1|].
      split; [|exact Y2]. exists p. repeat split; auto.
    - destruct Ha as (p & X1 & X2 & X3 & X4 & X5 & X6).
      destruct (l_cipher L iv l hdr (length inp) _ _ d X4 ltac:(unfold len64 in *; lia) Hd0) as (Y1 & Y2 & Y3).
      destruct (md_cipher md (b_m b) d) as [m out]. cbn [fst snd] in *. subst out. split; [reflexivity|].
      split; [exact (data_same (set_m b m) _)|]. split; [|exact Y2].
      apply (absd_data (Bd iv l hdr (length inp + length d))); [apply (l_bblocks L)| |exact Y2].
      exists p. repeat split; auto.
  Qed.

  Lemma foot_data : forall b d n, b_state b = SFooter -> b_ftr b = n -> 0 <= n -> bytes d -> length d <> 0%nat -> n + len64 d < 2 ^ 64 ->
    b_state (add_ftr (authenticate_data md b d) (len64 d)) = SFooter /\ b_ftr (add_ftr (authenticate_data md b d) (len64 d)) = n + len64 d.
  Proof.
    intros b d n Hs Hn H0 Hd0 He Hl. destruct (data_same b d) as (S1 & S2 & S3 & S4). cbn [add_ftr b_state b_ftr]. rewrite S1, S4, Hn.
    split; [exact Hs|]. unfold w64. apply Z.mod_small. pose proof (len64_nonneg d). lia.
  Qed.

  Lemma update_step : forall ph b d, inv ph b -> bytes d ->
    meets (snd (spec_update id ph d)) (snd (update md b d)) /\ inv (fst (spec_update id ph d)) (fst (update md b d)).
  Proof.
    intros ph b d (W & Hi) Hd0. pose proof (len64_nonneg d) as Hln.
    assert (W' : i_fresh id = true -> wfb (fst (update md b d))) by (intros E; apply w_update; auto).
    unfold spec_update. destruct (Nat.eqb_spec (length d) 0) as [E|E].
    { assert (U : update md b d = (b, ODone)) by (unfold update; destruct (Nat.eqb_spec (length d) 0); [reflexivity|contradiction]).
      rewrite U in *. split; [reflexivity|]. split; auto. }
    assert (En : Nat.eqb (length d) 0 = false) by (apply Nat.eqb_neq; auto).
    destruct ph as [ex|iv l hdr|iv l hdr inp|n|].
    - destruct Hi as (H1 & Hi). unfold update in *. rewrite En, H1 in *. split; [reflexivity|]. split; [auto|]. split; auto.
    - destruct Hi as (H1 & H2 & H3 & H4 & H5 & H6 & H7). unfold update in *. rewrite En, H1 in *. rewrite len64_app in *. destruct (Z.ltb_spec (len64 hdr + len64 d) (2 ^ 64)) as [Hl|Hl]; [|split; [exact I|split; [auto|exact I]]].
      split; [reflexivity|]. split; [auto|]. cbn [fst]. destruct (data_same b d) as (S1 & S2 & S3 & S4). cbn [add_hdr b_state b_hdr b_msg b_ftr].
      rewrite S1, S2, S3, S4, H1, H4, len64_app. split; [reflexivity|]. split; [|split; [rewrite bytes_app; auto|split; [|split; [lia|auto]]]].
      + pose proof (absd_data _ _ _ d (l_hblocks L iv l) H2 Hd0) as X. rewrite <- app_assoc in X. exact X.
      + unfold w64. apply Z.mod_small. pose proof (len64_nonneg hdr). lia.
    - destruct Hi as (H1 & H2 & H3 & H4 & H5 & H6 & H7 & H8 & H9 & H10).
      pose proof (l_last_conf L b iv l hdr (i_text id forward iv inp)) as X. rewrite text_length in X.
      specialize (X H2 H6). rewrite text_len64 in X. specialize (X H8 H9 H3 H5).
      rewrite (right_m_len l _ inp (text_length iv inp)) in X. 
      assert (U : update md b d = match md_last_conf md b with None => (b, OInvalid)
        | Some b1 => (add_ftr (authenticate_data md (set_state (set_num b1 0) SFooter) d) (len64 d), ODone) end).
      { unfold update. rewrite En, H1. unfold body_state. destruct (Bool.eqb _ _); reflexivity. }
      rewrite U in *. destruct (right_m id l inp).
      + destruct X as (b2 & X1 & (S1 & S2 & S3 & S4) & X3 & X4 & _). rewrite X1 in *.
        destruct (Z.ltb_spec (len64 d) (2 ^ 64)) as [Hl|Hl]; [|split; [exact I|split; [auto|exact I]]].
        split; [reflexivity|]. split; [auto|]. cbn [fst].
        destruct (foot_data (set_state (set_num b2 0) SFooter) d 0) as [Y1 Y2]; try reflexivity; auto; try lia.
        { cbn [set_state set_num b_ftr]. rewrite S4. exact H10. }
        split; [exact Y1|]. split; [exact Y2|]. pose proof (len64_pos d E). lia.
      + rewrite X in *. split; [reflexivity|]. split; [auto|]. repeat split; auto.
    - destruct Hi as (H1 & H2 & H3). unfold update in *. rewrite En, H1 in *.
      destruct (Z.ltb_spec (n + len64 d) (2 ^ 64)) as [Hl|Hl]; [|split; [exact I|split; [auto|exact I]]].
      split; [reflexivity|]. split; [auto|]. cbn [fst]. destruct (foot_data b d n) as [Y1 Y2]; auto; try lia.
      split; [exact Y1|]. split; [exact Y2|]. lia.
    - split; [exact I|split; [auto|exact I]].
  Qed.

  Lemma process_step : forall ph b d, inv ph b -> bytes d ->
    meets (snd (spec_process id ph d)) (snd (process md forward b d)) /\ inv (fst (spec_process id ph d)) (fst (process md forward b d)).
  Proof.
    intros ph b d (W & Hi) Hd0. pose proof (len64_nonneg d) as Hln.
    assert (W' : i_fresh id = true -> wfb (fst (process md forward b d))) by (intros E; apply w_process; auto).
    unfold spec_process. destruct ph as [ex|iv l hdr|iv l hdr inp|n|].
    - destruct Hi as (H1 & Hi). assert (U : process md forward b d = (add_msg b (len64 d), OBadState)).
      { unfold process. rewrite H1. cbn [andb add_msg b_state]. rewrite H1. reflexivity. }
      rewrite U in *. split; [reflexivity|]. split; [auto|]. split; [exact H1|exact Hi].
    - destruct Hi as (H1 & H2 & H3 & H4 & H5 & H6 & H7). assert (Hmx : 0 <= i_maxm id iv < 2 ^ 64) by (destruct H2 as (p & _ & _ & _ & R & _); exact (l_maxm L _ _ _ _ R)).
      assert (Hmm : md_maxm md (b_m b) = i_maxm id iv) by (destruct H2 as (p & _ & _ & _ & R & _); exact (l_hmax L _ _ _ _ R)).
      unfold process in *. rewrite H1, Hmm, H6, Z.sub_0_r in *. cbn [andb add_msg b_state] in *.
      assert (Ew : w64 (i_maxm id iv) = i_maxm id iv) by (apply Z.mod_small; lia). rewrite Ew in *.
      destruct (Z.ltb_spec (i_maxm id iv) (len64 d)) as [Hl|Hl]; [split; [reflexivity|split; [auto|repeat split; auto]]|].
      rewrite H1 in *. set (b1 := add_msg b (len64 d)) in *.
      pose proof (l_last_header L b1 iv l hdr) as X. destruct (right_h id l hdr).
      + destruct X as (b2 & X1 & (S1 & S2 & S3 & S4) & X3 & X4 & X5); auto. rewrite X1 in *. rewrite (l_plain L) in *.
        fold body_state in *. set (b3 := set_state (set_num b2 0) body_state) in *.
        pose proof (body_step b3 iv l hdr [] d eq_refl) as Y. specialize (Y ltac:(exists []; cbn [b3 set_state set_num b_num b_buf b_m length firstn]; repeat split; auto; [unfold i_text, i_crypt; destruct (Bool.eqb _ _); reflexivity|apply Nat.mod_0_l; pose proof (l_bs L); lia|exact (l_bs L)]) Hd0 Hl).
        destruct (process_body md b3 d) as [b4 o]. destruct Y as (Y1 & (T1 & T2 & T3 & T4) & Y2 & Y3). cbn [fst snd app length] in *. split; [exact Y1|].
        split; [exact W'|]. rewrite T1, T2, T3, T4. cbn [b3 set_state set_num b_state b_hdr b_msg b_ftr]. rewrite S2, S3, S4. subst b1. cbn [add_msg b_hdr b_msg b_ftr].
        split; [reflexivity|]. split; [exact Y2|]. split; [exact H3|]. split; [exact Hd0|].
        split; [unfold i_text; destruct (Bool.eqb _ _); [exact Hd0|exact Y3]|]. split; [exact H4|]. split; [exact H5|].
        split; [rewrite H6; unfold w64; apply Z.mod_small; lia|]. split; [lia|exact H7].
      + rewrite X in * by auto. split; [reflexivity|]. split; [exact W'|exact I].
    - destruct Hi as (H1 & H2 & H3 & H4 & H5 & H6 & H7 & H8 & H9 & H10). assert (Hmx : 0 <= i_maxm id iv < 2 ^ 64) by (destruct H2 as (p & _ & _ & _ & R & _); exact (l_maxm2 L _ _ _ _ _ _ R)). pose proof (len64_nonneg inp) as Hni.
      assert (Hmm : md_maxm md (b_m b) = i_maxm id iv) by (destruct H2 as (p & _ & _ & _ & R & _); exact (l_bmax L _ _ _ _ _ _ R)).
      assert (U : process md forward b d = if i_maxm id iv <? len64 inp + len64 d then (b, OInvalid) else process_body md (add_msg b (len64 d)) d).
      { unfold process. rewrite Hmm, H8. assert (Ew : w64 (i_maxm id iv - len64 inp) = i_maxm id iv - len64 inp) by (apply Z.mod_small; lia). rewrite Ew.
        replace (i_maxm id iv - len64 inp <? len64 d) with (i_maxm id iv <? len64 inp + len64 d) by (destruct (Z.ltb_spec (i_maxm id iv) (len64 inp + len64 d)), (Z.ltb_spec (i_maxm id iv - len64 inp) (len64 d)); auto; lia).
        cbn [add_msg b_state]. rewrite H1. unfold body_state. destruct (Bool.eqb _ _), (_ <? _); reflexivity. }
      rewrite U in *. destruct (Z.ltb_spec (i_maxm id iv) (len64 inp + len64 d)) as [Hl|Hl]; [split; [reflexivity|split; [auto|repeat split; auto]]|].
      pose proof (body_step (add_msg b (len64 d)) iv l hdr inp d H1 H2 Hd0 Hl) as Y. destruct (process_body md (add_msg b (len64 d)) d) as [b4 o].
      destruct Y as (Y1 & (T1 & T2 & T3 & T4) & Y2 & Y3). cbn [fst snd] in *. split; [exact Y1|]. split; [exact W'|].
      rewrite T1, T2, T3, T4. cbn [add_msg b_state b_hdr b_msg b_ftr]. split; [exact H1|]. split; [exact Y2|]. split; [exact H3|]. split; [rewrite bytes_app; auto|].
      split; [rewrite text_app, bytes_app; split; [exact H5|destruct (Bool.eqb _ _); [exact Hd0|exact Y3]]|]. split; [exact H6|]. split; [exact H7|].
      rewrite len64_app. split; [rewrite H8; unfold w64; apply Z.mod_small; lia|]. split; [lia|exact H10].
    - destruct Hi as (H1 & H2 & H3). unfold process in *. cbn [add_msg b_state] in *. rewrite H1 in *. cbn [andb] in *.
      destruct (_ <? _); (split; [cbn [meets snd]; auto|]); (split; [exact W'|]); repeat split; auto; lia.
    - split; [exact I|]. split; [exact W'|exact I].
  Qed.

  Lemma conf_step : forall b iv l hdr inp n, absd (Bd iv l hdr (length inp)) b (i_text id forward iv inp) -> bytes hdr -> bytes (i_text id forward iv inp) ->
    b_hdr b = len64 hdr -> len64 hdr < 2 ^ 64 -> len64 hdr <= i_maxh id -> b_msg b = len64 inp -> len64 inp <= i_maxm id iv -> b_ftr b = 0 -> (n <= i_digest id)%nat ->
    if right_m id l inp then
      let '(b2, o) := final_conf md b n in o = OBytes (firstn n (i_tag id iv hdr (i_text id forward iv inp))) /\
        b_state b2 = SKeySet /\ length (b_buf b2) = bl /\ bytes (b_buf b2) /\ Kd (b_m b2) /\ b_hdr b2 = len64 hdr /\ b_ftr b2 = 0
    else final_conf md b n = (b, OInvalid).
  Proof.
    intros b iv l hdr inp n H2 H3 H5 H6 H7 H7' H8 H9 H10 Hn.
    pose proof (l_last_conf L b iv l hdr (i_text id forward iv inp)) as X. rewrite text_length in X.
    specialize (X H2 H6). rewrite text_len64 in X. specialize (X H8 H9 H3 H5).
    rewrite (right_m_len l _ inp (text_length iv inp)) in X. unfold final_conf. destruct (right_m id l inp); [|rewrite X; reflexivity].
    destruct X as (b2 & X1 & (S1 & S2 & S3 & S4) & X3 & X4 & X5). rewrite X1. unfold final_footer.
    assert (Hr : right_h id l hdr = true) by (destruct H2 as (p & _ & _ & _ & R & _); exact (l_bright L _ _ _ _ _ _ R)).
    destruct (l_last_footer L (set_num b2 0) iv hdr (i_text id forward iv inp) n) as (Y1 & (T1 & T2 & T3 & T4) & Y3 & Y4).
    - exact (X5 Hr H7').
    - cbn [set_num b_hdr]. rewrite S2. exact H6.
    - cbn [set_num b_msg]. rewrite S3, text_len64. exact H8.
    - exact H7.
    - rewrite text_len64. exact H9.
    - exact Hn.
    - destruct (md_last_footer md (set_num b2 0) n) as [b3 t]. cbn [fst snd] in *. subst t. cbn [set_state set_num b_state b_buf b_m b_hdr b_ftr] in *.
      rewrite Y3, T2, T4, S2, S4. repeat split; auto.
  Qed.

  Lemma final_step : forall ph b n, inv ph b ->
    meets (snd (spec_final id forward ph n)) (snd (truncated_final md b n)) /\ inv (fst (spec_final id forward ph n)) (fst (truncated_final md b n)).
  Proof.
    intros ph b n Hi0. pose proof Hi0 as Hi1. destruct Hi1 as (W & Hi).
    assert (W' : i_fresh id = true -> wfb (fst (truncated_final md b n))) by (intros E; apply w_final; auto).
    unfold spec_final. unfold truncated_final in *. rewrite (l_digest L), (l_maxh L) in *.
    destruct (Nat.ltb_spec (i_digest id) n) as [Hn|Hn]; [split; [reflexivity|exact Hi0]|].
    destruct ph as [ex|iv l hdr|iv l hdr inp|k|].
    - destruct Hi as (H1 & H2 & H3 & H4 & H5). rewrite H1 in *. destruct ex.
      + destruct (H5 eq_refl) as [Q1 Q2]. rewrite Q2 in *. destruct (Z.ltb_spec (i_maxh id) (b_hdr b)); [lia|]. change (0 <? 0) with false in *. cbv iota in *.
        split; [reflexivity|]. exact Hi0.
      + destruct (_ <? _); [|destruct (_ <? _)]; (split; [cbn [meets snd]; auto|exact Hi0]).
    - destruct Hi as (H1 & H2 & H3 & H4 & H5 & H6 & H7). rewrite H4, H7, H1 in *. change (0 <? 0) with false in *. cbv iota in *.
      destruct (Z.ltb_spec (i_maxh id) (len64 hdr)) as [Hl|Hl]; [split; [reflexivity|exact Hi0]|].
      pose proof (l_last_header L b iv l hdr H2 H4 H3) as X. destruct (right_h id l hdr) eqn:Er.
      + destruct X as (b2 & X1 & (S1 & S2 & S3 & S4) & X3 & X4 & X5). rewrite X1 in *.
        pose proof (conf_step (set_num b2 0) iv l hdr [] n) as Y. 
        assert (Et : i_text id forward iv [] = []) by (unfold i_text, i_crypt; destruct (Bool.eqb _ _); reflexivity). rewrite Et in Y.
        specialize (Y ltac:(exists []; cbn [set_num b_num b_buf b_m length firstn app]; repeat split; auto; [apply Nat.mod_0_l; pose proof (l_bs L); lia|exact (l_bs L)]) H3 (Forall_nil _)).
        cbn [set_num b_hdr b_msg b_ftr] in Y. rewrite S2, S3, S4 in Y. assert (Hmx : 0 <= i_maxm id iv < 2 ^ 64) by (destruct H2 as (p & _ & _ & _ & R & _); exact (l_maxm L _ _ _ _ R)). specialize (Y H4 H5 Hl H6 ltac:(unfold len64; cbn [length]; lia) H7 Hn).
        destruct (right_m id l []).
        * destruct (final_conf md (set_num b2 0) n) as [b4 o]. destruct Y as (Y1 & Y2 & Y3 & Y4 & Y5 & Y6 & Y7). cbn [fst snd] in *. split; [exact Y1|]. split; [exact W'|].
          repeat split; auto. lia.
        * rewrite Y in *. split; [reflexivity|]. split; [exact W'|exact I].
      + rewrite X in *. split; [reflexivity|]. exact Hi0.
    - destruct Hi as (H1 & H2 & H3 & H4 & H5 & H6 & H7 & H8 & H9 & H10). rewrite H6, H10 in *. change (0 <? 0) with false in *. cbv iota in *.
      assert (U : match b_state b with SKeySet => (b, OBadState) | SIVSet => match md_last_header md b with Some b1 => final_conf md (set_num b1 0) n | None => (b, OInvalid) end
        | SUntransformed | STransformed => final_conf md b n | SFooter => final_footer md b n end = final_conf md b n) by (rewrite H1; unfold body_state; destruct (Bool.eqb _ _); reflexivity).
      rewrite U in *. clear U.
      destruct (Z.ltb_spec (i_maxh id) (len64 hdr)) as [Hl|Hl]; [split; [reflexivity|exact Hi0]|].
      pose proof (conf_step b iv l hdr inp n H2 H3 H5 H6 H7 Hl H8 H9 H10 Hn) as Y. destruct (right_m id l inp).
      + destruct (final_conf md b n) as [b4 o]. destruct Y as (Y1 & Y2 & Y3 & Y4 & Y5 & Y6 & Y7). cbn [fst snd] in *. split; [exact Y1|]. split; [exact W'|].
        repeat split; auto. lia.
      + rewrite Y in *. split; [reflexivity|]. exact Hi0.
    - destruct Hi as (H1 & H2 & H3). rewrite H1, H2 in *. destruct (_ <? _); [|destruct (Z.ltb_spec 0 k); [|lia]]; (split; [reflexivity|]); (split; [exact W'|]); repeat split; auto; lia.
    - split; [exact I|]. split; [exact W'|exact I].
  Qed.

  Lemma verify_step : forall ph b t, inv ph b ->
    meets (snd (spec_verify id forward ph t)) (snd (truncated_verify md b t)) /\ inv (fst (spec_verify id forward ph t)) (fst (truncated_verify md b t)).
  Proof.
    intros ph b t Hi. destruct (final_step ph b (length t) Hi) as [X Y]. unfold truncated_verify, spec_verify.
    assert (U : (if Nat.ltb (md_digest md) (length t) then (b, OInvalid) else let '(b1, o) := truncated_final md b (length t) in
       (b1, match o with OBytes u => OBool (if list_eq_dec Z.eq_dec u t then true else false) | _ => o end)) =
       (let '(b1, o) := truncated_final md b (length t) in (b1, match o with OBytes u => OBool (if list_eq_dec Z.eq_dec u t then true else false) | _ => o end))).
    { unfold truncated_final. destruct (Nat.ltb _ _); reflexivity. }
    rewrite U. destruct (truncated_final md b (length t)) as [b1 o]. destruct (spec_final id forward ph (length t)) as [ph1 x]. cbn [fst snd] in *.
    split; [|exact Y]. destruct x as [[]| |]; cbn [meets] in *; subst; auto. destruct X; subst; auto.
  Qed.

  Lemma start_step : forall ph b iv l, inv ph b -> aop_ok (AStart iv l) ->
    let '(b2, o) := astep md forward b (AStart iv l) in meets (snd (spec_start id ph iv l)) o /\ inv (fst (spec_start id ph iv l)) b2.
  Proof.
    intros ph b iv l (W & Hi) [Hiv Hl]. unfold spec_start. cbn [astep]. unfold resynchronize. rewrite (l_iv L).
    set (b0 := mkB SKeySet (b_buf b) 0 0 0 0 (b_m b)).
    assert (W0 : i_fresh id = true -> wfb b0) by (intros E; apply (w_set b); [apply W; exact E|exact (l_bs L)]).
    destruct (match ph with PNone _ => true | _ => i_fresh id end) eqn:Eok.
    - assert (K : length (b_buf b) = bl /\ bytes (b_buf b) /\ Kd (b_m b)).
      { destruct ph; try (destruct (W Eok) as (_ & Q1 & Q2 & Q3); auto; fail). destruct Hi as (_ & Q1 & Q2 & Q3 & _). auto. }
      destruct K as (K1 & K2 & K3).
      destruct (i_iv_ok id (length iv)) eqn:Eiv.
      + destruct (l_start L b0 iv K3 K1 K2 eq_refl Eiv Hiv) as ((S1 & S2 & S3 & S4) & X1 & X2 & X3).
        set (b1 := set_state (md_resync md b0 iv) SIVSet).
        assert (WS : i_fresh id = true -> wfb b1) by (intros E; apply (w_set (md_resync md b0 iv)); [exact (X2 E)|apply (X2 E)]).
        assert (HN : i_needs id = false -> inv (PHead iv None []) b1).
        { intros E. split; [exact WS|]. subst b1. cbn [set_state b_state b_hdr b_msg b_ftr]. rewrite S2, S3, S4. rewrite app_nil_r.
          split; [reflexivity|]. split; [exact (X3 E)|]. split; [constructor|]. repeat split; reflexivity. }
        destruct l as [[h m]|].
        * unfold specify_lengths. rewrite (l_maxh L). assert (Em : md_maxm md (b_m b1) = i_maxm id iv) by exact X1. rewrite Em.
          assert (HB : inv (if i_needs id then PBroken else PHead iv None []) b1) by (destruct (i_needs id); [split; [exact WS|exact I]|auto]).
          destruct (Z.ltb_spec (i_maxh id) h) as [Hh|Hh]; [split; [reflexivity|exact HB]|]. destruct (Z.ltb_spec (i_maxm id iv) m) as [Hm|Hm]; [split; [reflexivity|exact HB]|].
          destruct (l_specify L b0 iv h m K3 K1 K2 eq_refl Eiv Hiv ltac:(lia) ltac:(lia) ltac:(lia)) as (Y1 & Y2 & Y3 & Y4 & Y5 & Y6). fold b1 in Y1, Y2, Y3, Y4, Y5, Y6.
          split; [reflexivity|]. split; [exact Y5|]. cbn [orb fst]. rewrite Y1, Y2, Y3, Y4, app_nil_r. split; [reflexivity|]. split; [exact Y6|]. split; [constructor|]. repeat split; reflexivity.
        * destruct (i_needs id) eqn:En; (split; [reflexivity|]); [split; [exact WS|exact I]|auto].
      + assert (R : (let '(b2, o) := (b0, OInvalid) in meets (XOut OInvalid) o /\ inv (PNone true) b2)).
        { split; [reflexivity|]. split; [exact W0|]. repeat split; auto. exact (l_maxh0 L). }
        destruct l as [[h m]|]; exact R.
    - assert (R : forall b2, inv PBroken b2). { intros b2. split; [|exact I]. intros E. destruct ph; congruence. }
      destruct (i_iv_ok id (length iv)); [destruct l as [[h m]|]; [destruct (specify_lengths md _ h m)|]|]; (split; [exact I|apply R]).
  Qed.

  Lemma restart_step : forall ph b, inv ph b -> inv (spec_restart id ph) (restart b).
  Proof.
    intros ph b (W & Hi). unfold spec_restart, restart. destruct ph as [ex|iv l hdr|iv l hdr inp|n|].
    - rewrite (proj1 Hi). split; assumption.
    - rewrite (proj1 Hi). destruct (i_fresh id) eqn:Ef; [|split; [congruence|exact I]]. specialize (W eq_refl). split; [intros _; apply (w_set b); auto; apply W|].
      destruct W as (W1 & W2 & W3 & W4). cbn [set_state b_state b_buf b_m b_hdr b_ftr]. do 4 (split; [auto; exact W3|]). intros E. apply Z.leb_le in E. destruct Hi as (_ & _ & _ & -> & _ & _ & ->). auto.
    - assert (Er : match b_state b with SKeySet => b | _ => set_state b SKeySet end = set_state b SKeySet) by (rewrite (proj1 Hi); unfold body_state; destruct (Bool.eqb _ _); reflexivity). rewrite Er.
      destruct (i_fresh id) eqn:Ef; [|split; [congruence|exact I]]. specialize (W eq_refl). split; [intros _; apply (w_set b); auto; apply W|].
      destruct W as (W1 & W2 & W3 & W4). cbn [set_state b_state b_buf b_m b_hdr b_ftr].
      destruct Hi as (H1 & H2 & H3 & H4 & H5 & H6 & H7 & H8 & H9 & H10). do 4 (split; [auto; exact W3|]). intros E. apply Z.leb_le in E. rewrite H6. auto.
    - rewrite (proj1 Hi). destruct (i_fresh id) eqn:Ef; [|split; [congruence|exact I]]. specialize (W eq_refl). split; [intros _; apply (w_set b); auto; apply W|].
      destruct W as (W1 & W2 & W3 & W4). cbn [set_state b_state b_buf b_m b_hdr b_ftr]. do 4 (split; [auto; exact W3|]). discriminate.
    - destruct (i_fresh id) eqn:Ef; [|split; [congruence|exact I]]. specialize (W eq_refl).
      assert (Er : exists h x y n s, restart b = mkB s (b_buf b) n h x y (b_m b) /\ s = SKeySet /\ n = b_num b).
      { unfold restart. destruct b as [s bf nn h x y m]. exists h, x, y, nn, SKeySet. destruct s; repeat split. }
      destruct Er as (h & x & y & n & s & Er & -> & ->). unfold restart in Er. rewrite Er. split; [intros _; apply (w_set b); auto; apply W|].
      destruct W as (W1 & W2 & W3 & W4). cbn [b_state b_buf b_m]. do 4 (split; [auto; exact W3|]). discriminate.
  Qed.

  Theorem history : forall ops ph b, inv ph b -> Forall aop_ok ops -> Forall2 meets (spec_arun id forward ph ops) (snd (arun md forward b ops)).
  Proof.
    induction ops as [|op ops IH]; intros ph b Hi Hok; [constructor|]. inversion Hok as [|? ? Ho Hr]; subst. cbn [spec_arun arun].
    assert (S : meets (snd (spec_astep id forward ph op)) (snd (astep md forward b op)) /\ inv (fst (spec_astep id forward ph op)) (fst (astep md forward b op))).
    { destruct op as [iv l|d|d|n|t|].
      - pose proof (start_step ph b iv l Hi Ho) as X. cbn [spec_astep]. destruct (astep md forward b (AStart iv l)) as [b2 o]. exact X.
      - apply update_step; auto.
      - apply process_step; auto.
      - apply final_step; auto.
      - apply verify_step; auto.
      - split; [reflexivity|]. apply restart_step; auto. }
    destruct (astep md forward b op) as [b1 o]. destruct (spec_astep id forward ph op) as [ph1 x]. cbn [fst snd] in S. destruct S as [S1 S2].
    specialize (IH ph1 b1 S2 Hr). destruct (arun md forward b1 ops) as [b2 os]. cbn [snd] in *. constructor; auto.
  Qed.

End Framework.
