From Coq Require Import ZArith List Arith Lia Bool.
From Verif Require Import Base WindowModel WindowSpec.
Import ListNotations.

(** The window holds the last bytes of the output. *)
Record rel (W : nat) (w : win) (h : list Z) : Prop :=
  { r_len : length (wbuf w) = W;
    r_cur : wcur w = length h mod W;
    r_wrap : wwrap w = (W <=? length h);
    r_flush : wflush w <= wcur w;
    r_sent : wsent w ++ firstn (wcur w - wflush w) (skipn (wflush w) (wbuf w)) = h;
    r_win : forall j, j < length h -> length h <= j + W ->
            nth_error (wbuf w) (j mod W) = nth_error h j }.

Lemma mod_succ : forall n W, 0 < W ->
  S n mod W = if S (n mod W) =? W then 0 else S (n mod W).
Proof.
  intros n W HW. pose proof (Nat.div_mod n W ltac:(lia)) as E.
  pose proof (Nat.mod_upper_bound n W ltac:(lia)).
  destruct (Nat.eqb_spec (S (n mod W)) W).
  - symmetry. apply (Nat.mod_unique _ _ (S (n / W))); nia.
  - symmetry. apply (Nat.mod_unique _ _ (n / W)); lia.
Qed.

Lemma mod_inj : forall a b W, 0 < W -> a < b -> b < a + W -> a mod W <> b mod W.
Proof.
  intros a b W HW H1 H2 E.
  pose proof (Nat.div_mod a W ltac:(lia)). pose proof (Nat.div_mod b W ltac:(lia)).
  assert (b / W = a / W \/ b / W < a / W \/ a / W < b / W) by lia.
  nia.
Qed.

Lemma upd_nth_error_eq : forall {A} n (x : A) l, n < length l -> nth_error (upd n x l) n = Some x.
Proof.
  intros A n. induction n; destruct l; cbn; intros; try lia; auto. apply IHn; lia.
Qed.
Lemma upd_nth_error_neq : forall {A} n m (x : A) l, n <> m -> nth_error (upd n x l) m = nth_error l m.
Proof.
  intros A n. induction n; destruct l, m; cbn; intros; try lia; auto.
Qed.

Lemma output_byte_rel : forall W w h b, 0 < W -> rel W w h ->
  exists w', output_byte w b = Ok w' /\ rel W w' (h ++ [b]).
Proof.
  intros W w h b HW R. destruct R as [L C P F S_ N].
  pose proof (Nat.mod_upper_bound (length h) W ltac:(lia)) as HB.
  unfold output_byte. rewrite L.
  destruct (Nat.ltb_spec (wcur w) W); [|lia].
  eexists. split; [reflexivity|].
  assert (SN : firstn (S (wcur w) - wflush w) (skipn (wflush w) (upd (wcur w) b (wbuf w)))
          = firstn (wcur w - wflush w) (skipn (wflush w) (wbuf w)) ++ [b]).
  { rewrite upd_split by lia.
    rewrite skipn_app. rewrite firstn_app. rewrite skipn_length, firstn_length, L.
    rewrite skipn_firstn_comm, firstn_firstn.
    replace (Nat.min (S (wcur w) - wflush w) (wcur w - wflush w)) with (wcur w - wflush w) by lia.
    f_equal. replace (wflush w - Nat.min (wcur w) W) with 0 by lia.
    replace (S (wcur w) - wflush w - (Nat.min (wcur w) W - wflush w)) with 1 by lia.
    reflexivity. }
  assert (NW : forall j, j < length (h ++ [b]) -> length (h ++ [b]) <= j + W ->
     nth_error (upd (wcur w) b (wbuf w)) (j mod W) = nth_error (h ++ [b]) j).
  { intros j Hj1 Hj2. rewrite app_length in Hj1, Hj2. cbn in Hj1, Hj2.
    destruct (Nat.eq_dec j (length h)) as [->|Hne].
    - rewrite C, upd_nth_error_eq by lia.
      rewrite nth_error_app2 by lia. rewrite Nat.sub_diag. reflexivity.
    - rewrite nth_error_app1 by lia. rewrite upd_nth_error_neq.
      + apply N; lia.
      + rewrite C. apply not_eq_sym. apply mod_inj; lia. }
  unfold wrap_if_full. cbn [wcur wbuf wflush wwrap wsent]. rewrite upd_length, L.
  pose proof (mod_succ (length h) W HW) as MS. rewrite <- C in MS.
  destruct (Nat.eqb_spec (S (wcur w)) W) as [E|E].
  - constructor; cbn [wcur wbuf wflush wwrap wsent].
    + rewrite upd_length. exact L.
    + rewrite app_length. cbn. rewrite Nat.add_1_r. congruence.
    + rewrite app_length. cbn. symmetry. apply Nat.leb_le.
      pose proof (Nat.mod_le (length h) W ltac:(lia)). lia.
    + lia.
    + rewrite firstn_O, app_nil_r. rewrite <- S_ at 1. rewrite <- app_assoc. f_equal.
      rewrite <- SN. symmetry. apply firstn_all2. rewrite skipn_length, upd_length. lia.
    + exact NW.
  - constructor; cbn [wcur wbuf wflush wwrap wsent].
    + rewrite upd_length. exact L.
    + rewrite app_length. cbn. rewrite Nat.add_1_r. congruence.
    + rewrite app_length. cbn. rewrite P.
      destruct (Nat.leb_spec W (length h)); destruct (Nat.leb_spec W (length h + 1)); auto; try lia.
      assert (length h = W - 1) by lia. rewrite H2 in C.
      rewrite Nat.mod_small in C by lia. lia.
    + lia.
    + rewrite SN. rewrite app_assoc, S_. reflexivity.
    + exact NW.
Qed.

Lemma lz_copy_length : forall n d h, length (lz_copy n d h) = length h + n.
Proof.
  induction n; cbn [lz_copy]; intros; [lia|]. rewrite IHn, app_length. cbn. lia.
Qed.

Lemma copy_bytes_rel : forall W n d start w h, 0 < W -> rel W w h ->
  1 <= d -> d <= length h -> d <= W ->
  (n > 0 -> start = (length h - d) mod W) -> start + n <= W ->
  exists w', copy_bytes n start w = Ok w' /\ rel W w' (lz_copy n d h).
Proof.
  intros W. induction n; intros d start w h HW R D1 D2 D3 HS HL; cbn [copy_bytes lz_copy].
  - eauto.
  - unfold rd. rewrite (HS ltac:(lia)).
    rewrite (r_win _ _ _ R) by lia.
    rewrite (nth_error_nth' h 0%Z) by lia.
    destruct (output_byte_rel W w h (nth (length h - d) h 0%Z) HW R) as (w1 & E & R1).
    rewrite E. rewrite (HS ltac:(lia)) in HL.
    replace (S ((length h - d) mod W)) with ((length h - d) mod W + 1) by lia.
    destruct (IHn d ((length h - d) mod W + 1) w1 _ HW R1 D1) as (w2 & E2 & R2); eauto.
    + rewrite app_length. cbn. lia.
    + intros Hn. rewrite app_length. cbn.
      replace (length h + 1 - d) with (S (length h - d)) by lia.
      rewrite mod_succ by lia.
      destruct (Nat.eqb_spec (S ((length h - d) mod W)) W); lia.
    + lia.
Qed.

(** A memcpy that does not overlap is the byte by byte copy. *)
Lemma memcpy_is_copy : forall n start w,
  start + n <= wcur w -> wcur w + n < length (wbuf w) ->
  copy_bytes n start w =
  Ok (mkwin (firstn (wcur w) (wbuf w) ++ firstn n (skipn start (wbuf w))
             ++ skipn (wcur w + n) (wbuf w)) (wcur w + n) (wflush w) (wwrap w) (wsent w)).
Proof.
  induction n; intros start w H1 H2; cbn [copy_bytes].
  - rewrite Nat.add_0_r. cbn [app firstn]. rewrite firstn_skipn. destruct w; reflexivity.
  - unfold rd. rewrite (nth_error_nth' _ 0%Z) by lia.
    unfold output_byte. destruct (Nat.ltb_spec (wcur w) (length (wbuf w))); [|lia].
    unfold wrap_if_full. cbn [wcur wbuf wflush wwrap wsent]. rewrite upd_length.
    destruct (Nat.eqb_spec (S (wcur w)) (length (wbuf w))); [lia|].
    rewrite IHn; cbn [wcur wbuf wflush wwrap wsent]; rewrite ?upd_length; try lia.
    f_equal. f_equal; [|lia].
    set (x := nth start (wbuf w) 0%Z). set (l := wbuf w) in *. set (c := wcur w) in *.
    rewrite (upd_skipn c (S c + n)) by lia.
    rewrite (firstn_S_nth c 0%Z) by (rewrite upd_length; lia).
    rewrite upd_firstn by lia. rewrite upd_nth_eq by lia.
    rewrite <- app_assoc. f_equal. cbn [app].
    assert (Ex : firstn (S n) (skipn start l) = x :: firstn n (skipn (S start) l)).
    { unfold x. rewrite (nth_split_at start 0%Z l) at 1 by lia.
      rewrite skipn_app. rewrite firstn_length. rewrite Nat.min_l by lia.
      rewrite Nat.sub_diag. rewrite skipn_all2 by (rewrite firstn_length; lia).
      reflexivity. }
    rewrite Ex. cbn [app]. f_equal. f_equal; [|f_equal; lia].
    assert (forall k m (u : list Z), m + k <= c -> firstn k (skipn m (upd c x u)) = firstn k (skipn m u)) as HH.
    { intros. rewrite !firstn_skipn_comm. rewrite upd_firstn by lia. reflexivity. }
    apply HH. lia.
Qed.

Lemma copy_rest_rel : forall W n d start w h, 0 < W -> rel W w h ->
  1 <= d -> d <= length h -> d <= W ->
  (n > 0 -> start = (length h - d) mod W) -> start + n <= W ->
  exists w', copy_rest n start w = Ok w' /\ rel W w' (lz_copy n d h).
Proof.
  intros W n d start w h HW R D1 D2 D3 HS HL.
  destruct (copy_bytes_rel W n d start w h HW R D1 D2 D3 HS HL) as (w' & E & R').
  unfold copy_rest. pose proof (r_len _ _ _ R) as L.
  destruct ((wcur w <? start + n) || (length (wbuf w) <=? wcur w + n)) eqn:B.
  - eauto.
  - apply orb_false_iff in B as [B1 B2].
    apply Nat.ltb_ge in B1. apply Nat.leb_gt in B2.
    rewrite memcpy_is_copy in E by lia. injection E as <-.
    destruct (Nat.leb_spec (start + n) (length (wbuf w))); [|lia].
    unfold blit. rewrite firstn_length, skipn_length.
    rewrite (Nat.min_l n) by lia.
    destruct (Nat.leb_spec (wcur w + n) (length (wbuf w))); [|lia].
    eauto.
Qed.

Lemma lz_copy_add : forall a b d h, lz_copy (a + b) d h = lz_copy b d (lz_copy a d h).
Proof. induction a; cbn [lz_copy Nat.add]; intros; auto. Qed.

Lemma output_past_rel : forall W n d w h, 0 < W -> rel W w h ->
  1 <= d -> n <= W + 1 ->
  if (d <=? length h) && (d <=? W)
  then exists w', output_past n d w = Ok w' /\ rel W w' (lz_copy n d h)
  else output_past n d w = Throw.
Proof.
  intros W n d w h HW R D1 HN.
  pose proof (r_len _ _ _ R) as L. pose proof (r_cur _ _ _ R) as C. pose proof (r_wrap _ _ _ R) as P.
  pose proof (Nat.mod_upper_bound (length h) W ltac:(lia)) as HB.
  pose proof (Nat.div_mod (length h) W ltac:(lia)) as DM.
  unfold output_past. rewrite L.
  assert (GO : forall start, d <= length h -> d <= W -> start = (length h - d) mod W ->
    exists w', (if W <? start + n
      then match copy_bytes (W - start) start w with
           | Ok w => copy_rest (n - (W - start)) 0 w
           | Throw => Throw | Oob => Oob end
      else copy_rest n start w) = Ok w' /\ rel W w' (lz_copy n d h)).
  { intros start D2 D3 HS.
    pose proof (Nat.mod_upper_bound (length h - d) W ltac:(lia)) as HB2.
    destruct (Nat.ltb_spec W (start + n)).
    - destruct (copy_bytes_rel W (W - start) d start w h HW R D1 D2 D3) as (w1 & E1 & R1); [auto|lia|].
      rewrite E1.
      destruct (copy_rest_rel W (n - (W - start)) d 0 w1 _ HW R1 D1) as (w2 & E2 & R2);
        rewrite ?lz_copy_length; try lia.
      + intros _. pose proof (Nat.div_mod (length h - d) W ltac:(lia)).
        apply (Nat.mod_unique _ _ (S ((length h - d) / W))); nia.
      + exists w2. split; [exact E2|].
        rewrite <- lz_copy_add in R2.
        replace (W - start + (n - (W - start))) with n in R2 by lia. exact R2.
    - apply copy_rest_rel; auto. }
  destruct (Nat.leb_spec d (wcur w)) as [Hd|Hd].
  - assert (d <= length h) by (pose proof (Nat.mod_le (length h) W ltac:(lia)); lia).
    destruct (Nat.leb_spec d (length h)); [|lia]. destruct (Nat.leb_spec d W); [|lia]. cbn [andb].
    apply GO; try lia. rewrite C.
    apply (Nat.mod_unique _ _ (length h / W)); lia.
  - rewrite P. destruct (Nat.leb_spec W (length h)).
    + destruct (Nat.leb_spec d W).
      * destruct (Nat.leb_spec d (length h)); [|lia]. cbn [andb].
        apply GO; try lia. rewrite C.
        assert (0 < length h / W) by (apply Nat.div_str_pos; lia).
        apply (Nat.mod_unique _ _ (length h / W - 1)); nia.
      * rewrite andb_false_r. reflexivity.
    + rewrite Nat.mod_small in C by lia.
      destruct (Nat.leb_spec d (length h)); [lia|]. reflexivity.
Qed.

(** OutputString is OutputByte for each byte. *)
Fixpoint put_all (w : win) (s : list Z) : res win :=
  match s with
  | [] => Ok w
  | b :: s => match output_byte w b with Ok w => put_all w s | Throw => Throw | Oob => Oob end
  end.

Lemma put_all_rel : forall W s w h, 0 < W -> rel W w h ->
  exists w', put_all w s = Ok w' /\ rel W w' (h ++ s).
Proof.
  intros W. induction s as [|b s IH]; intros w h HW R; cbn [put_all].
  - rewrite app_nil_r. eauto.
  - destruct (output_byte_rel W w h b HW R) as (w1 & E & R1). rewrite E.
    destruct (IH w1 _ HW R1) as (w2 & E2 & R2). exists w2. split; auto.
    rewrite <- app_assoc in R2. exact R2.
Qed.

Lemma put_all_app : forall a b w,
  put_all w (a ++ b) = match put_all w a with Ok w => put_all w b | Throw => Throw | Oob => Oob end.
Proof.
  induction a; cbn [put_all app]; intros; auto. destruct (output_byte w a); auto.
Qed.

Lemma put_all_small : forall s w, s <> [] -> wcur w + length s <= length (wbuf w) ->
  put_all w s = Ok (wrap_if_full (mkwin (firstn (wcur w) (wbuf w) ++ s ++ skipn (wcur w + length s) (wbuf w))
                     (wcur w + length s) (wflush w) (wwrap w) (wsent w))).
Proof.
  induction s as [|b s IH]; intros w Hne H; [congruence|].
  cbn [length] in H. cbn [put_all]. unfold output_byte.
  destruct (Nat.ltb_spec (wcur w) (length (wbuf w))); [|lia].
  assert (Hu : upd (wcur w) b (wbuf w) = firstn (wcur w) (wbuf w) ++ b :: skipn (S (wcur w)) (wbuf w))
    by (apply upd_split; lia).
  destruct s as [|c s].
  - cbn [put_all length app]. rewrite Nat.add_1_r, Hu. reflexivity.
  - unfold wrap_if_full at 1. cbn [wcur wbuf wflush wwrap wsent]. rewrite upd_length.
    cbn [length] in H.
    destruct (Nat.eqb_spec (S (wcur w)) (length (wbuf w))); [lia|].
    rewrite IH; cbn [wcur wbuf wflush wwrap wsent length]; rewrite ?upd_length; try lia; try congruence.
    f_equal. f_equal. f_equal; [|lia].
    rewrite (firstn_S_nth (wcur w) 0%Z) by (rewrite upd_length; lia).
    rewrite upd_firstn by lia. rewrite upd_nth_eq by lia. rewrite <- app_assoc. f_equal.
    cbn [app]. f_equal. f_equal. f_equal. rewrite upd_skipn by lia. f_equal. lia.
Qed.

Lemma output_string_put_all : forall W s fuel w h, 0 < W -> rel W w h -> length s <= fuel ->
  output_string fuel w s = put_all w s.
Proof.
  intros W s. remember (length s) as n eqn:Hn. revert s Hn.
  induction n as [n IH] using lt_wf_ind. intros s Hn fuel w h HW R Hf.
  destruct s as [|b s]; [destruct fuel; reflexivity|].
  destruct fuel as [|fuel]; [cbn in Hn; lia|].
  pose proof (r_len _ _ _ R) as L. pose proof (r_cur _ _ _ R) as C.
  pose proof (Nat.mod_upper_bound (length h) W ltac:(lia)) as HB.
  cbn [output_string].
  remember (b :: s) as t eqn:Et.
  assert (Ht : 0 < length t) by (subst t; cbn; lia).
  assert (Hlen : Nat.min (length t) (length (wbuf w) - wcur w) > 0) by lia.
  set (len := Nat.min (length t) (length (wbuf w) - wcur w)) in *.
  unfold blit. rewrite firstn_length. rewrite Nat.min_l by lia.
  destruct (Nat.leb_spec (wcur w + len) (length (wbuf w))); [|lia].
  rewrite <- (firstn_skipn len t) at 3.
  rewrite put_all_app.
  destruct (put_all_rel W (firstn len t) w h HW R) as (w1 & E1 & R1).
  pose proof E1 as E1'.
  rewrite put_all_small in E1'.
  2:{ intros Q. apply (f_equal (@length Z)) in Q. rewrite firstn_length in Q. cbn in Q. lia. }
  2:{ rewrite firstn_length. lia. }
  rewrite firstn_length in E1'. rewrite (Nat.min_l len) in E1' by lia.
  injection E1' as E1'. rewrite E1, E1'.
  apply (IH (length (skipn len t))) with (h := h ++ firstn len t); auto.
  - rewrite skipn_length. lia.
  - rewrite skipn_length. lia.
Qed.

Lemma flush_rel : forall W w h, 0 < W -> rel W w h -> rel W (flush_output w) h /\ wsent (flush_output w) = h.
Proof.
  intros W w h HW R. destruct R as [L C P F S_ N]. split.
  - constructor; cbn [flush_output wcur wbuf wflush wwrap wsent]; auto.
    rewrite Nat.sub_diag, firstn_O, app_nil_r. exact S_.
  - exact S_.
Qed.

Lemma wstep_rel : forall W w h o, 0 < W -> rel W w h -> wop_ok (W + 1) o ->
  match hist1 W h o with
  | Some h' => exists w', wstep w o = Ok w' /\ rel W w' h'
  | None => wstep w o = Throw
  end.
Proof.
  intros W w h o HW R HO. destruct o; cbn [hist1 wstep].
  - apply output_byte_rel; auto.
  - rewrite (output_string_put_all W _ _ w h) by auto. apply put_all_rel; auto.
  - cbn in HO. pose proof (output_past_rel W length_ distance w h HW R ltac:(lia) ltac:(lia)) as O.
    destruct ((distance <=? length h) && (distance <=? W)); exact O.
  - destruct (flush_rel W w h HW R). eauto.
Qed.

Lemma wrun_rel : forall W l w h, 0 < W -> rel W w h -> Forall (wop_ok (W + 1)) l ->
  match hist W h l with
  | Some h' => exists w', wrun w l = Ok w' /\ rel W w' h'
  | None => wrun w l = Throw
  end.
Proof.
  intros W. induction l as [|o l IH]; intros w h HW R HF; cbn [hist wrun].
  - eauto.
  - pose proof (Forall_inv HF) as H0. pose proof (Forall_inv_tail HF) as HT.
    pose proof (wstep_rel W w h o HW R H0) as ST.
    destruct (hist1 W h o) as [h1|].
    + destruct ST as (w1 & E & R1). rewrite E. apply IH; auto.
    + rewrite ST. reflexivity.
Qed.

Lemma rel_new : forall init, 0 < length init -> rel (length init) (win_new init) [].
Proof.
  intros init H. constructor; cbn [win_new wcur wbuf wflush wwrap wsent length]; auto.
  - rewrite Nat.mod_0_l by lia. reflexivity.
  - symmetry. apply Nat.leb_gt. lia.
  - intros; lia.
Qed.
