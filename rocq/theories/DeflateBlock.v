(** DeflateBlock: what EncodeBlock writes is a block of the format. *)
From Coq Require Import ZArith List Bool Arith Lia.
From Verif Require Import Base BitioModel BitioSpec BitioStream HuffmanModel HuffmanSpec HuffmanCode HuffmanProofs WindowSpec.
From Verif Require Import InflateSpec InflateBits InflateProofs DeflateModel DeflateTree DeflateHeader.
Import ListNotations.
Open Scope nat_scope.

(** * Literals and pairs *)
Definition tok_step (W : nat) (h : list Z) (t : token) (h' : list Z) : Prop :=
  (t_lit t < 256 /\ h' = h ++ [Z.of_nat (t_lit t)])
  \/ exists ls le ds de,
     256 < t_lit t /\ length_code (t_lit t) = Some (ls, le) /\ t_lextra t < 2 ^ le
     /\ distance_code (t_dist t) = Some (ds, de) /\ t_dextra t < 2 ^ de
     /\ Z.to_nat ds + t_dextra t <= length h /\ Z.to_nat ds + t_dextra t <= W
     /\ h' = lz_copy (ls + t_lextra t) (Z.to_nat ds + t_dextra t) h.

Fixpoint expands (W : nat) (h : list Z) (l : list token) (h2 : list Z) : Prop :=
  match l with
  | [] => h2 = h
  | t :: l => exists h', tok_step W h t h' /\ expands W h' l h2
  end.

Lemma expands_app : forall W a b h h1 h2, expands W h a h1 -> expands W h1 b h2 -> expands W h (a ++ b) h2.
Proof.
  induction a as [|t a IH]; intros b h h1 h2 HA HB; cbn [expands app] in *; [subst; exact HB|].
  destruct HA as [h' [A1 A2]]. exists h'. split; [exact A1|]. eapply IH; eassumption.
Qed.

Lemma length_extra_ok : forall k ls le, 256 < k -> length_code k = Some (ls, le) ->
  nth (k - 257) length_extra_bits 0 = le /\ le <= 5.
Proof.
  intros k ls le Hk H. unfold length_code in H. remember (k - 257) as j eqn:Ej. clear Ej.
  do 29 (destruct j as [|j]; [cbn in H; injection H as <- <-; cbn; lia|]). destruct j; cbn in H; discriminate.
Qed.

Lemma distance_extra_ok : forall j ds de, distance_code j = Some (ds, de) ->
  nth j distance_extra_bits 0 = de /\ de <= 13.
Proof.
  intros j ds de H. unfold distance_code in H.
  do 30 (destruct j as [|j]; [cbn in H; injection H as <- <-; cbn; lia|]). destruct j; cbn in H; discriminate.
Qed.

Definition token_bits (lit dist : list nat) (t : token) : list bool :=
  codeword lit (t_lit t) ++
  (if 257 <=? t_lit t
   then lsbs (nth (t_lit t - 257) length_extra_bits 0) (Z.of_nat (t_lextra t))
        ++ codeword dist (t_dist t)
        ++ lsbs (nth (t_dist t) distance_extra_bits 0) (Z.of_nat (t_dextra t))
   else []).

Definition counted (P Q : nat -> Prop) (t : token) : Prop := P (t_lit t) /\ (257 <= t_lit t -> Q (t_dist t)).

Lemma put_token_adds : forall W el ed lit dist (P Q : nat -> Prop) h t h' w,
  encodes el lit P -> encodes ed dist Q -> counted P Q t -> tok_step W h t h' -> wok w ->
  adds w (put_token el ed w t) (token_bits lit dist t).
Proof.
  intros W el ed lit dist P Q h t h' w HE HD [HP HQ] HT HW. unfold put_token, token_bits.
  destruct (HE _ w HP HW) as [C1 A1].
  destruct HT as [[HL _]|(ls & le & ds & de & HL & LC & LE & DC & DE & _)].
  - destruct (Nat.leb_spec 257 (t_lit t)); [lia|]. rewrite app_nil_r. exact A1.
  - destruct (Nat.leb_spec 257 (t_lit t)); [|lia]. specialize (HQ H).
    destruct (length_extra_ok _ _ _ HL LC) as [E1 B1]. destruct (distance_extra_ok _ _ _ DC) as [E2 B2].
    rewrite E1, E2.
    pose proof (put_adds _ (t_lextra t) le (proj1 A1) ltac:(lia) LE) as A2.
    destruct (HD _ _ HQ (proj1 A2)) as [C3 A3].
    pose proof (put_adds _ (t_dextra t) de (proj1 A3) ltac:(lia) DE) as A4.
    eapply adds_trans; [exact A1|]. eapply adds_trans; [exact A2|]. eapply adds_trans; [exact A3|exact A4].
Qed.

Lemma fold_tokens : forall W el ed lit dist (P Q : nat -> Prop), encodes el lit P -> encodes ed dist Q ->
  forall l h h2 w, Forall (counted P Q) l -> expands W h l h2 -> wok w ->
  adds w (fold_left (put_token el ed) l w) (flat_map (token_bits lit dist) l).
Proof.
  intros W el ed lit dist P Q HE HD. induction l as [|t l IH]; intros h h2 w HF HX HW; cbn [fold_left flat_map].
  - split; [exact HW|rewrite app_nil_r; reflexivity].
  - inversion HF; subst. destruct HX as [h' [X1 X2]].
    pose proof (put_token_adds W el ed lit dist P Q h t h' w HE HD H1 X1 HW) as A.
    eapply adds_trans; [exact A|]. eapply IH; [assumption|exact X2|apply A].
Qed.

Lemma tokens_symbols : forall W lit dist l h h2 s,
  Forall (fun t => coded lit (t_lit t) /\ (257 <= t_lit t -> coded dist (t_dist t))) l -> coded lit 256 ->
  expands W h l h2 ->
  symbols true W lit dist h (flat_map (token_bits lit dist) l ++ codeword lit 256 ++ s) h2 s.
Proof.
  intros W lit dist. induction l as [|t l IH]; intros h h2 s HF HC HX; cbn [flat_map expands] in *.
  - subst h2. cbn [app]. apply sym_end. split; [exact HC|reflexivity].
  - inversion HF; subst. destruct HX as [h' [X1 X2]]. destruct H1 as [C1 C2].
    specialize (IH h' h2 s H2 HC X2). unfold token_bits at 1.
    destruct X1 as [[HL ->]|(ls & le & ds & de & HL & LC & LE & DC & DE & D1 & D2 & ->)].
    + destruct (Nat.leb_spec 257 (t_lit t)); [lia|]. rewrite app_nil_r, <- app_assoc.
      eapply sym_literal; [split; [exact C1|reflexivity]|exact HL|exact IH].
    + destruct (Nat.leb_spec 257 (t_lit t)); [|lia].
      destruct (length_extra_ok _ _ _ HL LC) as [E1 B1]. destruct (distance_extra_ok _ _ _ DC) as [E2 B2].
      rewrite E1, E2. rewrite <- !app_assoc.
      eapply sym_match; [split; [exact C1|reflexivity]|exact HL|exact LC|split; [exact LE|reflexivity]| |exact DC| | | |].
      * split; [exact (C2 H)|reflexivity].
      * split; [exact DE|reflexivity].
      * exact D1.
      * exact D2.
      * exact IH.
Qed.

Lemma put_tokens_block : forall W el ed lit dist (P Q : nat -> Prop) l h h2 w,
  encodes el lit P -> encodes ed dist Q -> P 256 -> Forall (counted P Q) l -> expands W h l h2 -> wok w ->
  exists bits, adds w (put_tokens el ed w l) bits /\ forall s, symbols true W lit dist h (bits ++ s) h2 s.
Proof.
  intros W el ed lit dist P Q l h h2 w HE HD HP HF HX HW.
  pose proof (fold_tokens W el ed lit dist P Q HE HD l h h2 w HF HX HW) as A.
  destruct (HE 256 _ HP (proj1 A)) as [C B].
  exists (flat_map (token_bits lit dist) l ++ codeword lit 256). split; [unfold put_tokens; eapply adds_trans; eassumption|].
  intros s. rewrite <- app_assoc. apply tokens_symbols; [|exact C|exact HX].
  eapply Forall_impl; [|exact HF]. intros t [X1 X2]. split; [apply (HE _ _ X1 HW)|]. intros X3. apply (HD _ _ (X2 X3) HW).
Qed.

(** * Blocks *)

(** The block that waits to be written: [h] before it, [data] in it. *)
Record pending (W : nat) (h data : list Z) (toks : list token) (lits dists : list Z) : Prop := mkpending
  { pe_exp : expands W h toks (h ++ data);
    pe_lits : length lits = 286; pe_dists : length dists = 30;
    pe_lits0 : Forall (fun c => (0 <= c)%Z) lits; pe_dists0 : Forall (fun c => (0 <= c)%Z) dists;
    pe_none : (forall j, nth j dists 0 <= 0)%Z -> forall k, 257 <= k -> (nth k lits 0 <= 0)%Z;
    pe_cnt : Forall (counted (fun i => (0 < nth i lits 0)%Z) (fun j => (0 < nth j dists 0)%Z)) toks }.

Lemma lsbs_mod8 : forall v, lsbs 8 (v mod 256) = lsbs 8 v.
Proof. intros v. apply lsbs_ext. intros k Hk. change 256%Z with (2 ^ 8)%Z. apply Z.mod_pow2_bits_low. lia. Qed.

Lemma stream_word16 : forall v, stream [v mod 256; (v / 256) mod 256]%Z = lsbs 16 v.
Proof.
  intros v. unfold stream. cbn [flat_map]. rewrite app_nil_r, !lsbs_mod8. rewrite (lsbs_app 8 8).
  rewrite Z.shiftr_div_pow2 by lia. reflexivity.
Qed.

Lemma align_pad : forall k s, k < 8 -> whole s -> align (repeat false k ++ s) = s.
Proof.
  intros k s Hk HS. rewrite align_app by exact HS. unfold align. rewrite repeat_length, Nat.mod_small by exact Hk.
  rewrite skipn_all2 by (rewrite repeat_length; lia). reflexivity.
Qed.

Lemma fixed_symbols : forall i, i < 286 -> coded static_literals i.
Proof.
  intros i Hi. unfold coded, static_literals.
  destruct (Nat.lt_ge_cases i 144); [rewrite app_nth1 by (rewrite repeat_length; lia); rewrite nth_repeat_lt by lia; lia|].
  rewrite app_nth2 by (rewrite repeat_length; lia). rewrite repeat_length.
  destruct (Nat.lt_ge_cases i 256); [rewrite app_nth1 by (rewrite repeat_length; lia); rewrite nth_repeat_lt by lia; lia|].
  rewrite app_nth2 by (rewrite repeat_length; lia). rewrite repeat_length.
  destruct (Nat.lt_ge_cases i 280); [rewrite app_nth1 by (rewrite repeat_length; lia); rewrite nth_repeat_lt by lia; lia|].
  rewrite app_nth2 by (rewrite repeat_length; lia). rewrite repeat_length.
  rewrite nth_repeat_lt by lia. lia.
Qed.

Lemma fixed_distances : forall i, i < 30 -> coded static_distances i.
Proof. intros i Hi. unfold coded, static_distances. rewrite nth_repeat_lt by lia. lia. Qed.

Lemma header_adds : forall w (eof : bool) t, wok w -> t < 4 ->
  adds w (put (put w (if eof then 1 else 0) 1) t 2) (eof :: lsbs 2 (Z.of_nat t)).
Proof.
  intros w eof t HW Ht.
  pose proof (put_adds w (if eof then 1 else 0) 1 HW ltac:(lia) ltac:(destruct eof; cbn; lia)) as A.
  pose proof (put_adds _ t 2 (proj1 A) ltac:(lia) ltac:(cbn; lia)) as B.
  pose proof (adds_trans _ _ _ _ _ A B) as C. destruct eof; exact C.
Qed.

Definition code_of (k : kind) : nat := match k with STORED => 0 | STATIC => 1 | DYNAMIC => 2 end.

(** [w'] is [w] with a block. *)
Definition writes (W : nat) (w w' : writer) (eof : bool) (h data : list Z) : Prop :=
  exists bits, adds w w' bits /\
  forall F, whole (wbits w' ++ F) -> exists t s1 s2,
    bits ++ F = eof :: s1 /\ field 2 t s1 s2 /\ block true W t h s2 (h ++ data) F.

Lemma encode_block_ok : forall W w eof k h data toks lits dists,
  wok w -> bytes data -> (Z.of_nat (length data) < 65536)%Z ->
  (k <> STORED -> pending W h data toks lits dists) ->
  exists w', encode_block w eof k data toks lits dists = Some w' /\ writes W w w' eof h data.
Proof.
  intros W w eof k h data toks lits dists HW HB HL HP. unfold encode_block.
  assert (HC : code_of k < 4) by (destruct k; cbn; lia).
  pose proof (header_adds w eof (code_of k) HW HC) as A. unfold code_of in A.
  set (w2 := put (put w (if eof then 1 else 0) 1) _ 2) in *. clearbody w2.
  destruct k.
  - destruct (flush_bits_spec w2 (proj1 A)) as [F1 [F2 [F3 [k [K1 K2]]]]].
    set (w3 := flush_bits w2) in *. clearbody w3. destruct F1 as [G1 [G2 [G3 G4]]].
    rewrite F2, app_nil_r in G4.
    set (len := Z.of_nat (length data)) in *.
    assert (LM : (len mod 65536 = len)%Z) by (apply Z.mod_small; lia). rewrite LM.
    eexists. split; [reflexivity|]. unfold writes.
    assert (WB : wbits (mkwr (w_buf w3) (w_cnt w3) (w_pend w3)
       (w_sent w3 ++ [len mod 256; (len / 256) mod 256; (65535 - len) mod 256; ((65535 - len) / 256) mod 256]%Z ++ data)
       (w_counting w3) (w_count w3))
      = wbits w ++ ((eof :: lsbs 2 (Z.of_nat 0)) ++ repeat false k ++ lsbs 16 len ++ lsbs 16 (65535 - len) ++ stream data)).
    { unfold wbits at 1. cbn [w_sent w_pend w_cnt w_buf]. rewrite F2, F3, app_nil_r. cbn [lsbs]. rewrite app_nil_r.
      rewrite !stream_app, K2, (proj2 A).
      change ([len mod 256; (len / 256) mod 256; (65535 - len) mod 256; ((65535 - len) / 256) mod 256]%Z)
        with ([len mod 256; (len / 256) mod 256]%Z ++ [(65535 - len) mod 256; ((65535 - len) / 256) mod 256]%Z).
      rewrite stream_app, !stream_word16. rewrite <- !app_assoc. reflexivity. }
    exists ((eof :: lsbs 2 (Z.of_nat 0)) ++ repeat false k ++ lsbs 16 len ++ lsbs 16 (65535 - len) ++ stream data).
    split.
    + split; [|exact WB]. unfold wok. cbn [w_counting w_buf w_cnt w_sent w_pend].
      split; [exact G1|]. split; [exact G2|]. split; [exact G3|]. rewrite F2, app_nil_r.
      apply bytes_app. split; [exact G4|]. apply bytes_app. split; [|exact HB].
      repeat constructor; try (apply Z.mod_pos_bound; lia).
    + intros F HF. exists 0, (lsbs 2 0 ++ repeat false k ++ lsbs 16 len ++ lsbs 16 (65535 - len) ++ stream data ++ F),
        (repeat false k ++ lsbs 16 len ++ lsbs 16 (65535 - len) ++ stream data ++ F).
      assert (WF : whole F).
      { unfold wbits in HF. cbn [w_sent w_pend w_cnt w_buf] in HF. rewrite F2, F3, app_nil_r in HF. cbn [lsbs] in HF.
        rewrite app_nil_r in HF. unfold whole in *. rewrite app_length, Nat.add_mod in HF by lia.
        pose proof (whole_stream (w_sent w3 ++ [len mod 256; (len / 256) mod 256; (65535 - len) mod 256; ((65535 - len) / 256) mod 256]%Z ++ data)) as WS.
        unfold whole in WS. rewrite WS in HF. rewrite Nat.add_0_l, Nat.mod_mod in HF by lia. exact HF. }
      split; [cbn [app]; rewrite <- !app_assoc; reflexivity|].
      split; [split; [cbn; lia|reflexivity]|].
      eapply (blk_stored true W h _ len data); [lia| |exact HB|reflexivity|reflexivity].
      rewrite align_pad; [reflexivity|exact K1|].
      unfold whole in *. rewrite !app_length, !lsbs_length, stream_length.
      replace (16 + (16 + (8 * length data + length F))) with (length F + (4 + length data) * 8) by lia.
      rewrite Nat.mod_add by lia. exact WF.
  - destruct (HP ltac:(discriminate)) as [X1 X2 X3 X4 X5 X6 X7].
    destruct (put_tokens_block W (enc_init static_literals) (enc_init static_distances) static_literals static_distances
      (coded static_literals) (coded static_distances) toks h (h ++ data) w2) as [bits [B1 B2]].
    + apply usable_encodes. left. exact fixed_lit_complete.
    + apply usable_encodes. left. exact fixed_dist_complete.
    + apply fixed_symbols. lia.
    + eapply Forall_impl; [|exact X7]. intros t [Y1 Y2]. split.
      * apply fixed_symbols. destruct (Nat.lt_ge_cases (t_lit t) 286); [assumption|]. rewrite nth_overflow in Y1 by lia. lia.
      * intros Y3. apply fixed_distances. specialize (Y2 Y3).
        destruct (Nat.lt_ge_cases (t_dist t) 30); [assumption|]. rewrite nth_overflow in Y2 by lia. lia.
    + exact X1.
    + apply A.
    + eexists. split; [reflexivity|]. eexists. split; [eapply adds_trans; [exact A|exact B1]|].
      intros F _. exists 1, (lsbs 2 (Z.of_nat 1) ++ bits ++ F), (bits ++ F).
      split; [cbn [app]; rewrite <- app_assoc; reflexivity|]. split; [split; [cbn; lia|reflexivity]|].
      apply blk_fixed. apply B2.
  - destruct (HP ltac:(discriminate)) as [X1 X2 X3 X4 X5 X6 X7].
    destruct (put_dynamic_ok w2 lits dists (proj1 A) X2 X3 X4 X5 X6) as (w4 & ll & dl & hdr & lit & dist & E & AH & DY & EL & ED).
    rewrite E.
    destruct (put_tokens_block W (enc_init ll) (enc_init dl) lit dist
      (fun i => i = 256 \/ (0 < nth i lits 0)%Z) (fun j => (0 < nth j dists 0)%Z) toks h (h ++ data) w4) as [bits [B1 B2]].
    + exact EL.
    + exact ED.
    + left. reflexivity.
    + eapply Forall_impl; [|exact X7]. intros t [Y1 Y2]. split; [right; exact Y1|exact Y2].
    + exact X1.
    + apply AH.
    + eexists. split; [reflexivity|].
      eexists. split; [eapply adds_trans; [exact A|eapply adds_trans; [exact AH|exact B1]]|].
      intros F _. exists 2, (lsbs 2 (Z.of_nat 2) ++ hdr ++ bits ++ F), (hdr ++ bits ++ F).
      split; [cbn [app]; rewrite <- !app_assoc; reflexivity|]. split; [split; [cbn; lia|reflexivity]|].
      eapply blk_dynamic; [apply DY|apply B2].
Qed.

(** * Blocks one after the other *)

(** What is written so far is complete blocks, and they hold [h]. *)
Definition written (W : nat) (w : writer) (h : list Z) : Prop :=
  wok w /\ forall F hend send, whole (wbits w ++ F) ->
    inflates true W h F hend send -> inflates true W [] (wbits w ++ F) hend send.

Lemma written_new : forall W, written W writer_new [].
Proof.
  intros W. split; [unfold wok, writer_new; cbn; repeat split; try lia; constructor|]. intros F hend send _ H. exact H.
Qed.

Lemma written_more : forall W w w' h data, written W w h -> writes W w w' false h data -> written W w' (h ++ data).
Proof.
  intros W w w' h data [_ H] (bits & [A1 A2] & B). split; [exact A1|]. intros F hend send HF HI.
  destruct (B F HF) as (t & s1 & s2 & E & T & BL).
  rewrite A2, <- app_assoc in *. apply H; [exact HF|]. rewrite E. eapply inf_more; [reflexivity|exact T|exact BL|exact HI].
Qed.

Lemma written_last : forall W w w' h data rest, written W w h -> writes W w w' true h data ->
  bytes (w_sent (flush_bits w')) /\ deflated true W (w_sent (flush_bits w') ++ rest) (h ++ data) rest.
Proof.
  intros W w w' h data rest [_ H] (bits & [A1 A2] & B).
  destruct (flush_bits_spec w' A1) as [F1 [F2 [F3 [k [K1 K2]]]]].
  split; [destruct F1 as [_ [_ [_ F4]]]; rewrite F2, app_nil_r in F4; exact F4|].
  unfold deflated. rewrite stream_app, K2, <- app_assoc.
  set (F := repeat false k ++ stream rest).
  assert (HF : whole (wbits w' ++ F)).
  { unfold F. rewrite app_assoc, <- K2. apply whole_app; apply whole_stream. }
  destruct (B F HF) as (t & s1 & s2 & E & T & BL).
  rewrite A2, <- app_assoc in *. apply H; [exact HF|]. rewrite E.
  replace (stream rest) with (align F) by (apply align_pad; [exact K1|apply whole_stream]).
  eapply inf_last; [reflexivity|exact T|exact BL].
Qed.

(** Counting does not fail. *)
Lemma put_dynamic_any : forall w w2 lits dists r, put_dynamic w lits dists = Some r -> put_dynamic w2 lits dists <> None.
Proof.
  intros w w2 lits dists r H. unfold put_dynamic in *.
  destruct (code_lengths 15 (upd 256 1%Z lits)) as [ll|]; [|discriminate].
  destruct (code_lengths 15 dists) as [dl|]; [|discriminate].
  cbv zeta in *. destruct (code_lengths 7 _) as [cl|]; [discriminate|discriminate H].
Qed.

Lemma encode_block_any : forall w w2 eof k data toks lits dists r,
  encode_block w eof k data toks lits dists = Some r -> encode_block w2 eof k data toks lits dists <> None.
Proof.
  intros w w2 eof k data toks lits dists r H. unfold encode_block in *. destruct k; try discriminate.
  destruct (put_dynamic (put (put w (if eof then 1 else 0) 1) 2 2) lits dists) as [p|] eqn:E; [|discriminate].
  pose proof (put_dynamic_any _ (put (put w2 (if eof then 1 else 0) 1) 2 2) _ _ _ E) as N.
  destruct (put_dynamic (put (put w2 _ 1) 2 2) lits dists) as [[[? ?] ?]|]; [discriminate|congruence].
Qed.
