(** DeflateHeader: the code lengths that EncodeBlock writes are those that the
    format gives back. *)
From Coq Require Import ZArith List Bool Arith Lia.
From Verif Require Import Base BitioModel BitioSpec BitioStream HuffmanModel HuffmanSpec HuffmanCode HuffmanProofs.
From Verif Require Import InflateSpec InflateBits DeflateModel DeflateTree.
Import ListNotations.
Open Scope nat_scope.

(** * Writing *)
Definition adds (w w' : writer) (s : list bool) : Prop := wok w' /\ wbits w' = wbits w ++ s.

Lemma put_adds : forall w v n, wok w -> n <= 32 -> v < 2 ^ n -> adds w (put w v n) (lsbs n (Z.of_nat v)).
Proof.
  intros w v n HW Hn Hv. unfold put, adds. apply put_bits_spec; auto. rewrite <- pow2_nat. lia.
Qed.

Lemma adds_trans : forall w1 w2 w3 a b, adds w1 w2 a -> adds w2 w3 b -> adds w1 w3 (a ++ b).
Proof. intros w1 w2 w3 a b [A1 A2] [B1 B2]. split; [exact B1|]. rewrite B2, A2, app_assoc. reflexivity. Qed.

(** An encoder writes the codes of [lens] for the symbols in [P]. *)
Definition encodes (enc : list (Z * nat)) (lens : list nat) (P : nat -> Prop) : Prop :=
  forall i w, P i -> wok w -> coded lens i /\ adds w (encode_symbol enc w i) (codeword lens i).

Lemma one_enc : forall lens i, one_code lens i -> nth i (enc_init lens) (0%Z, 0) = (0%Z, 1).
Proof.
  intros lens i H. pose proof (one_max lens i H) as M. destruct H as [H1 H2].
  assert (L : (i < length lens)) by (destruct (Nat.lt_ge_cases i (length lens)); auto; rewrite nth_overflow in H1 by auto; discriminate).
  unfold enc_init. rewrite M. cbn [Nat.eqb Nat.sub enc_starts]. unfold next_code.
  assert (G : forall t k next, nth 1 next 0%Z = 0%Z -> (forall j, j < length t -> nth j t 0 = nth (k + j) lens 0) ->
    k <= i < k + length t -> nth (i - k) (enc_rows next t) (0%Z, 0) = (0%Z, 1)).
  { induction t as [|x t IH]; intros k next HN HT HI; [cbn in HI; lia|].
    assert (HT' : forall j, j < length t -> nth j t 0 = nth (S k + j) lens 0).
    { intros j Hj. specialize (HT (S j)). cbn [length nth] in HT. rewrite HT by lia. f_equal. lia. }
    pose proof (HT 0) as HX. cbn [length nth] in HX. rewrite Nat.add_0_r in HX. specialize (HX ltac:(lia)).
    cbn [length] in HI. destruct (Nat.eq_dec k i) as [->|N].
    - rewrite H1 in HX. subst x. rewrite Nat.sub_diag. cbn [enc_rows nth]. rewrite HN. reflexivity.
    - rewrite (H2 k N) in HX. subst x. cbn [enc_rows]. replace (i - k) with (S (i - S k)) by lia. cbn [nth].
      apply IH; auto. lia. }
  specialize (G lens 0 [0%Z; 0%Z] eq_refl). rewrite Nat.sub_0_r in G. apply G; [reflexivity|lia].
Qed.

Lemma one_codeword : forall lens i, one_code lens i -> codeword lens i = [false].
Proof.
  intros lens i [H1 H2]. unfold codeword, code_value. rewrite H1.
  rewrite zsum_map_zero; [reflexivity|]. intros j _. unfold before.
  destruct (Nat.eq_dec j i) as [->|N].
  - rewrite Nat.ltb_irrefl. rewrite H1. reflexivity.
  - rewrite (H2 j N). reflexivity.
Qed.

Lemma usable_encodes : forall lens, usable true lens -> encodes (enc_init lens) lens (coded lens).
Proof.
  intros lens HU i w Ci HW. split; [exact Ci|]. destruct HU as [HK|[j HO]].
  - apply encode_symbol_spec; assumption.
  - assert (i = j) as -> by (destruct (Nat.eq_dec i j); auto; exfalso; apply Ci; apply HO; auto).
    unfold encode_symbol. rewrite (one_enc lens j HO), (one_codeword lens j HO). cbn [fst snd].
    apply (put_bits_spec w 0 1 HW); [lia|]. cbn. lia.
Qed.

(** * Zeros at the end of a list of lengths *)
Lemma before_0 : forall j l i, before 0 j l i = false.
Proof. reflexivity. Qed.

Lemma nth_zeros : forall (l : list nat) k i, nth i (l ++ repeat 0 k) 0 = nth i l 0.
Proof.
  intros. destruct (Nat.lt_ge_cases i (length l)); [apply app_nth1; assumption|].
  rewrite app_nth2 by assumption. rewrite nth_repeat. symmetry. apply nth_overflow. assumption.
Qed.

Lemma codeword_zeros : forall l k i, codeword (l ++ repeat 0 k) i = codeword l i.
Proof.
  intros l k i. unfold codeword. rewrite nth_zeros. f_equal. unfold code_value. rewrite nth_zeros.
  rewrite app_length, seq_app, map_app, zsum_app.
  rewrite (zsum_map_zero _ (seq (0 + length l) _)).
  - rewrite Z.add_0_r. apply zsum_map_ext. intros j _. rewrite nth_zeros. reflexivity.
  - intros j Hj. apply in_seq in Hj. rewrite nth_zeros. rewrite (nth_overflow l) by lia. reflexivity.
Qed.

Lemma usable_zeros : forall l k, usable true (l ++ repeat 0 k) -> usable true l.
Proof.
  intros l k [[H1 H2]|[i [H1 H2]]].
  - left. apply Forall_app in H1. split; [apply H1|]. rewrite map_app, zsum_app in H2.
    rewrite (zsum_map_zero weight (repeat 0 k)) in H2; [lia|]. intros x Hx. apply repeat_spec in Hx. subst. reflexivity.
  - right. exists i. split; [rewrite <- nth_zeros with (k := k); exact H1|].
    intros j Hj. rewrite <- nth_zeros with (k := k). apply H2. exact Hj.
Qed.

Lemma trim_le : forall l, trim l <= length l.
Proof. induction l as [|x l IH]; cbn [trim length]; [lia|]. destruct (trim l); [destruct (x =? 0)|]; lia. Qed.

Lemma trim_zeros : forall l, skipn (trim l) l = repeat 0 (length l - trim l).
Proof.
  induction l as [|x l IH]; cbn [trim length]; [reflexivity|].
  destruct (trim l) eqn:E.
  - destruct (Nat.eqb_spec x 0) as [->|N]; cbn [skipn Nat.sub repeat] in *; rewrite ?Nat.sub_0_r in *; [f_equal; exact IH|exact IH].
  - exact IH.
Qed.

Lemma trim_zero : forall l, (forall i, nth i l 0 = 0) -> trim l = 0.
Proof.
  induction l as [|x l IH]; intros H; cbn [trim]; [reflexivity|].
  rewrite IH by (intros i; apply (H (S i))). specialize (H 0). cbn [nth] in H. subst x. reflexivity.
Qed.

(** The lengths that are sent, and what is left off. *)
Lemma trim_split : forall a l, a <= length l ->
  l = firstn (trim (skipn a l) + a) l ++ repeat 0 (length l - (trim (skipn a l) + a))
  /\ trim (skipn a l) + a <= length l.
Proof.
  intros a l H. pose proof (trim_le (skipn a l)) as T. rewrite skipn_length in T. split; [|lia].
  rewrite <- (firstn_skipn (trim (skipn a l) + a) l) at 1. f_equal.
  pose proof (trim_zeros (skipn a l)) as Z. rewrite skipn_skipn_add, skipn_length in Z. rewrite Z. f_equal. lia.
Qed.

Lemma sent_lengths : forall a l, a <= length l -> usable true l ->
  usable true (firstn (trim (skipn a l) + a) l)
  /\ encodes (enc_init l) (firstn (trim (skipn a l) + a) l) (coded l).
Proof.
  intros a l H HU. destruct (trim_split a l H) as [E _].
  set (t := firstn (trim (skipn a l) + a) l) in *. set (k := length l - _) in E.
  split; [apply (usable_zeros t k); rewrite <- E; exact HU|].
  intros i w Hi HW. destruct (usable_encodes l HU i w Hi HW) as [A B].
  split.
  - unfold coded. rewrite <- (nth_zeros t k), <- E. exact A.
  - rewrite <- (codeword_zeros t k), <- E. exact B.
Qed.

(** * Run lengths *)
Lemma run_of_spec : forall v l lim, let r := run_of v l lim in
  r <= lim /\ r <= length l /\ firstn r l = repeat v r.
Proof.
  induction l as [|x l IH]; intros lim; cbn [run_of length]; [split; [lia|split; [lia|reflexivity]]|].
  destruct lim; [split; [lia|split; [lia|reflexivity]]|].
  destruct (Nat.eqb_spec x v) as [->|N]; [|split; [lia|split; [lia|reflexivity]]].
  destruct (IH lim) as [A [B C]]. split; [lia|]. split; [lia|]. cbn [firstn repeat]. f_equal. exact C.
Qed.

Lemma repeat3 : forall {A} (x : A) n, repeat x (3 + n) = x :: x :: x :: repeat x n.
Proof. reflexivity. Qed.

Inductive cle (before rest : list nat) : nat -> nat -> nat -> nat -> Prop :=
| cle_one : forall v, v = nth 0 rest 0 -> firstn 1 rest = [v] -> cle before rest v 0 0 1
| cle_16 : forall b0 x e, before = b0 ++ [x] -> e < 4 -> firstn (3 + e) rest = repeat x (3 + e) ->
    3 + e <= length rest -> cle before rest 16 e 2 (3 + e)
| cle_17 : forall e, e < 8 -> firstn (3 + e) rest = repeat 0 (3 + e) ->
    3 + e <= length rest -> cle before rest 17 e 3 (3 + e)
| cle_18 : forall e, e < 128 -> firstn (11 + e) rest = repeat 0 (11 + e) ->
    11 + e <= length rest -> cle before rest 18 e 7 (11 + e).

Lemma code_length_encode_spec : forall before rest c e k n, rest <> [] ->
  code_length_encode before rest = (c, e, k, n) -> cle before rest c e k n.
Proof.
  intros before rest c e k n HR H. unfold code_length_encode in H.
  assert (ONE : cle before rest (nth 0 rest 0) 0 0 1) by (destruct rest; [contradiction|apply cle_one; reflexivity]).
  destruct (Nat.leb_spec 3 (length rest)) as [L|_]; [|injection H as <- <- <- <-; exact ONE].
  destruct rest as [|x [|y [|z t]]]; cbn [length] in L; try lia. clear L HR.
  cbn [nth skipn] in H.
  destruct ((x =? 0) && (y =? 0) && (z =? 0)) eqn:E0.
  - apply andb_prop in E0 as [E0 E3]. apply andb_prop in E0 as [E1 E2].
    apply Nat.eqb_eq in E1, E2, E3. subst x y z.
    destruct (run_of_spec 0 t 135) as [A [B C]]. set (r := run_of 0 t 135) in *.
    assert (F : firstn (3 + r) (0 :: 0 :: 0 :: t) = repeat 0 (3 + r)) by (rewrite repeat3, <- C; reflexivity).
    destruct (Nat.leb_spec (3 + r) 10).
    + replace (3 + r - 3) with r in H by lia. injection H as <- <- <- <-.
      apply (cle_17 _ _ r); [lia|exact F|cbn [length]; lia].
    + remember (3 + r - 11) as e0 eqn:Ee. assert (E11 : 3 + r = 11 + e0) by lia. rewrite E11 in H, F.
      injection H as <- <- <- <-. apply (cle_18 _ _ e0); [lia|exact F|cbn [length]; lia].
  - destruct (negb (length before =? 0) && (x =? last before 0) && (x =? y) && (x =? z)) eqn:E1.
    + apply andb_prop in E1 as [E1 E5]. apply andb_prop in E1 as [E1 E4]. apply andb_prop in E1 as [E2 E3].
      apply Nat.eqb_eq in E3, E4, E5. subst y z.
      destruct before as [|b0 before0 _] using rev_ind; [discriminate|]. rewrite last_last in E3. subst b0.
      destruct (run_of_spec x t 3) as [A [B C]]. set (r := run_of x t 3) in *.
      replace (3 + r - 3) with r in H by lia. injection H as <- <- <- <-.
      apply (cle_16 _ _ before0 x r); [reflexivity|lia|rewrite repeat3, <- C; reflexivity|cbn [length]; lia].
    + injection H as <- <- <- <-. exact ONE.
Qed.

Definition code_bits (cl : list nat) (c : nat * nat * nat) : list bool :=
  codeword cl (fst (fst c)) ++ lsbs (snd c) (Z.of_nat (snd (fst c))).

Lemma run_lengths_spec : forall cl fuel before rest s,
  length rest <= fuel -> Forall (fun l => l <= 15) rest ->
  Forall (fun c => coded cl (fst (fst c))) (run_lengths fuel before rest) ->
  lengths true cl (length (before ++ rest)) before
          (flat_map (code_bits cl) (run_lengths fuel before rest) ++ s) (before ++ rest) s.
Proof.
  intros cl. induction fuel as [|fuel IH]; intros before rest s HL HF HC.
  - destruct rest; [|cbn [length] in HL; lia]. cbn [run_lengths flat_map app]. rewrite app_nil_r.
    apply len_done. reflexivity.
  - destruct rest as [|v rest0] eqn:ER.
    { cbn [run_lengths flat_map app]. rewrite app_nil_r. apply len_done. reflexivity. }
    rewrite <- ER in *. assert (HR : rest <> []) by (rewrite ER; discriminate).
    assert (RW : run_lengths (S fuel) before rest =
      let '(c, e, k, n) := code_length_encode before rest in
      (c, e, k) :: run_lengths fuel (before ++ firstn n rest) (skipn n rest)) by (rewrite ER; reflexivity).
    rewrite RW in *. clear RW.
    destruct (code_length_encode before rest) as [[[c e] k] n] eqn:EC.
    apply code_length_encode_spec in EC; [|exact HR].
    inversion HC as [|? ? C1 C2]; subst x l. cbn [fst] in C1.
    assert (HN : 1 <= n <= length rest).
    { destruct EC; try lia. rewrite ER. cbn [length]. lia. }
    assert (NEXT : lengths true cl (length (before ++ rest)) (before ++ firstn n rest)
      (flat_map (code_bits cl) (run_lengths fuel (before ++ firstn n rest) (skipn n rest)) ++ s) (before ++ rest) s).
    { specialize (IH (before ++ firstn n rest) (skipn n rest) s). rewrite <- app_assoc, firstn_skipn in IH.
      apply IH; [rewrite skipn_length; lia|apply Forall_skipn; exact HF|exact C2]. }
    cbn [flat_map]. unfold code_bits at 1. cbn [fst snd]. rewrite <- !app_assoc.
    assert (LT : length before < length (before ++ rest)) by (rewrite app_length; lia).
    set (tail := flat_map _ _ ++ s) in *. clearbody tail.
    revert C1 NEXT. clear HC C2 HN. destruct EC as [v1 V1 V2|b0 x e X1 X2 X3 X4|e X2 X3 X4|e X2 X3 X4]; intros C1 NEXT.
    + rewrite V2 in NEXT. cbn [lsbs app].
      eapply len_one; [exact LT|split; [exact C1|reflexivity]| |exact NEXT].
      rewrite ER in HF, V1. inversion HF; subst. assumption.
    + rewrite X3 in NEXT. subst before.
      eapply len_copy; [exact LT|split; [exact C1|reflexivity]|split; [|reflexivity]|exact NEXT]. cbn. lia.
    + rewrite X3 in NEXT.
      eapply len_zero3; [exact LT|split; [exact C1|reflexivity]|split; [|reflexivity]|exact NEXT]. cbn. lia.
    + rewrite X3 in NEXT.
      eapply len_zero11; [exact LT|split; [exact C1|reflexivity]|split; [|reflexivity]|exact NEXT].
      change (2 ^ 7) with 128. lia.
Qed.

(** * The code of the code lengths *)
Lemma count_fold : forall l t, length t = 19 -> Forall (fun c => (0 <= c)%Z) t ->
  Forall (fun c : nat * nat * nat => fst (fst c) < 19) l ->
  let r := fold_left (fun t c => upd (fst (fst c)) (nth (fst (fst c)) t 0 + 1)%Z t) l t in
  length r = 19 /\ Forall (fun c => (0 <= c)%Z) r
  /\ (forall i, nth i t 0 <= nth i r 0)%Z
  /\ (forall c, In c l -> (0 < nth (fst (fst c)) r 0)%Z).
Proof.
  induction l as [|c l IH]; intros t HL HF HC; cbn [fold_left].
  - split; [exact HL|]. split; [exact HF|]. split; [intros; lia|intros c []].
  - inversion HC; subst. set (x := fst (fst c)) in *.
    assert (P : (0 <= nth x t 0)%Z).
    { rewrite Forall_forall in HF. apply HF. apply nth_In. lia. }
    destruct (IH (upd x (nth x t 0 + 1)%Z t)) as [A [B [C D]]].
    + rewrite upd_length. exact HL.
    + apply upd_Forall; [exact HF|lia].
    + assumption.
    + assert (U : forall i, (nth i t 0 <= nth i (upd x (nth x t 0 + 1) t) 0)%Z).
      { intros i. destruct (Nat.eq_dec i x) as [->|N]; [rewrite upd_nth_eq by lia; lia|rewrite upd_nth_neq by lia; lia]. }
      split; [exact A|]. split; [exact B|]. split.
      * intros i. specialize (C i). specialize (U i). lia.
      * intros c' [<-|Hc]; [|apply D; exact Hc]. fold x. specialize (C x). rewrite upd_nth_eq in C by lia. lia.
Qed.

Lemma run_lengths_codes : forall fuel before rest, Forall (fun l => l <= 15) rest ->
  Forall (fun c => fst (fst c) < 19 /\ snd c <= 7 /\ snd (fst c) < 2 ^ snd c) (run_lengths fuel before rest).
Proof.
  induction fuel as [|fuel IH]; intros before rest HF; [constructor|].
  destruct rest as [|v rest0] eqn:ER; [constructor|]. rewrite <- ER in *.
  assert (RW : run_lengths (S fuel) before rest =
      let '(c, e, k, n) := code_length_encode before rest in
      (c, e, k) :: run_lengths fuel (before ++ firstn n rest) (skipn n rest)) by (rewrite ER; reflexivity).
  rewrite RW. clear RW.
  destruct (code_length_encode before rest) as [[[c e] k] n] eqn:EC.
  apply code_length_encode_spec in EC; [|rewrite ER; discriminate].
  constructor; [|apply IH; apply Forall_skipn; exact HF]. cbn [fst snd].
  destruct EC as [v1 V1 V2|b0 x e X1 X2 X3 X4|e X2 X3 X4|e X2 X3 X4].
  - rewrite ER in HF, V1. inversion HF; subst. cbn [nth]. split; [lia|]. split; [lia|]. cbn. lia.
  - split; [lia|]. split; [lia|]. cbn. lia.
  - split; [lia|]. split; [lia|]. cbn. lia.
  - split; [lia|]. split; [lia|]. change (2 ^ 7) with 128. lia.
Qed.

Lemma hclen_from_spec : forall k cl, k <= 19 -> 4 <= k ->
  let h := hclen_from k cl in 4 <= h <= k /\ forall j, h <= j < k -> nth (nth j border 0) cl 0 = 0.
Proof.
  induction k as [|k IH]; intros cl H1 H2; [lia|]. cbn [hclen_from].
  destruct (Nat.ltb_spec 4 (S k)); cbn [andb]; [|split; [lia|intros; lia]].
  destruct (Nat.eqb_spec (nth (nth k border 0) cl 0) 0); [|split; [lia|intros; lia]].
  destruct (IH cl) as [A B]; [lia|lia|]. split; [lia|]. intros j Hj.
  destruct (Nat.eq_dec j k) as [->|]; [assumption|apply B; lia].
Qed.

Lemma cl_lens_sent : forall cl, length cl = 19 ->
  cl_lens (map (fun b => nth b cl 0) (firstn (hclen_from 19 cl - 4 + 4) border)) = cl.
Proof.
  intros cl HL. destruct (hclen_from_spec 19 cl) as [A B]; [lia|lia|].
  set (h := hclen_from 19 cl) in *. replace (h - 4 + 4) with h by lia. clearbody h.
  do 19 (destruct cl as [|? cl]; [discriminate|]). destruct cl; [|discriminate]. clear HL.
  assert (C : h = 4 \/ h = 5 \/ h = 6 \/ h = 7 \/ h = 8 \/ h = 9 \/ h = 10 \/ h = 11 \/ h = 12 \/ h = 13 \/ h = 14 \/ h = 15
    \/ h = 16 \/ h = 17 \/ h = 18 \/ h = 19) by lia.
  assert (B4 := B 4). assert (B5 := B 5). assert (B6 := B 6). assert (B7 := B 7). assert (B8 := B 8). assert (B9 := B 9).
  assert (B10 := B 10). assert (B11 := B 11). assert (B12 := B 12). assert (B13 := B 13). assert (B14 := B 14).
  assert (B15 := B 15). assert (B16 := B 16). assert (B17 := B 17). assert (B18 := B 18). clear B.
  cbn [border nth] in *.
  repeat (destruct C as [C|C]; [subst h; repeat match goal with X : _ -> _ = 0 |- _ => first [specialize (X ltac:(lia)); subst | clear X] end; reflexivity|]).
  subst h. reflexivity.
Qed.

(** * The whole header *)
Lemma fold_put3 : forall cl l w, wok w -> Forall (fun b => nth b cl 0 < 8) l ->
  adds w (fold_left (fun w b => put w (nth b cl 0) 3) l w)
       (flat_map (fun v => lsbs 3 (Z.of_nat v)) (map (fun b => nth b cl 0) l)).
Proof.
  induction l as [|b l IH]; intros w HW HF; cbn [fold_left map flat_map].
  - split; [exact HW|rewrite app_nil_r; reflexivity].
  - inversion HF; subst. assert (P : adds w (put w (nth b cl 0) 3) (lsbs 3 (Z.of_nat (nth b cl 0)))).
    { apply put_adds; [exact HW|lia|]. change (2 ^ 3) with 8. assumption. }
    eapply adds_trans; [exact P|]. apply IH; [apply P|assumption].
Qed.

Lemma fold_codes : forall enc cl l w, encodes enc cl (coded cl) -> wok w ->
  Forall (fun c => coded cl (fst (fst c))) l ->
  Forall (fun c => fst (fst c) < 19 /\ snd c <= 7 /\ snd (fst c) < 2 ^ snd c) l ->
  adds w (fold_left (fun w c => put (encode_symbol enc w (fst (fst c))) (snd (fst c)) (snd c)) l w)
       (flat_map (code_bits cl) l).
Proof.
  intros enc cl l. induction l as [|c l IH]; intros w HE HW HC HB; cbn [fold_left flat_map].
  - split; [exact HW|rewrite app_nil_r; reflexivity].
  - inversion HC; subst. inversion HB; subst. destruct H3 as [_ [K1 K2]].
    destruct (HE _ w H1 HW) as [_ E1].
    pose proof (put_adds _ (snd (fst c)) (snd c) (proj1 E1) ltac:(lia) K2) as P.
    eapply adds_trans; [unfold code_bits; eapply adds_trans; [exact E1|exact P]|].
    apply IH; [exact HE|apply P|assumption|assumption].
Qed.

Lemma usable_of : forall lens, (exists i, coded lens i) ->
  complete lens \/ (exists i, one_code lens i) \/ lens = repeat 0 (length lens) -> usable true lens.
Proof.
  intros lens [i Hi] [H|[H|H]]; [left; exact H|right; exact H|].
  exfalso. apply Hi. rewrite H. apply nth_repeat.
Qed.

Lemma put_dynamic_ok : forall w lits dists, wok w ->
  length lits = 286 -> length dists = 30 ->
  Forall (fun c => (0 <= c)%Z) lits -> Forall (fun c => (0 <= c)%Z) dists ->
  ((forall j, nth j dists 0 <= 0)%Z -> forall k, 257 <= k -> (nth k lits 0 <= 0)%Z) ->
  exists w' ll dl hdr lit dist,
    put_dynamic w lits dists = Some (w', ll, dl) /\ adds w w' hdr
    /\ (forall s, dynamic true (hdr ++ s) lit dist s)
    /\ encodes (enc_init ll) lit (fun i => i = 256 \/ (0 < nth i lits 0)%Z)
    /\ encodes (enc_init dl) dist (fun j => (0 < nth j dists 0)%Z).
Proof.
  intros w lits dists HW L1 L2 F1 F2 HD. unfold put_dynamic.
  assert (P8 : (2 ^ Z.of_nat 15 = 32768)%Z) by reflexivity.
  destruct (code_lengths_ok 15 (upd 256 1%Z lits)) as (ll & E1 & LL & Z1 & B1 & U1).
  { lia. } { rewrite upd_length, L1, P8. lia. } { apply upd_Forall; [exact F1|lia]. }
  destruct (code_lengths_ok 15 dists) as (dl & E2 & LD & Z2 & B2 & U2).
  { lia. } { rewrite L2, P8. lia. } { exact F2. }
  rewrite E1, E2. rewrite upd_length, L1 in LL. rewrite L2 in LD.
  assert (C256 : coded ll 256). { apply Z1. rewrite upd_nth_eq by lia. lia. }
  assert (UL : usable true ll). { apply usable_of; [exists 256; exact C256|]. rewrite upd_length, L1, <- LL in U1. exact U1. }
  destruct (sent_lengths 257 ll ltac:(lia) UL) as [SU SE]. destruct (trim_split 257 ll ltac:(lia)) as [ST SL].
  destruct (trim_split 1 dl ltac:(lia)) as [DT DL].
  set (hlit := trim (skipn 257 ll)) in *. set (hdist := trim (skipn 1 dl)) in *.
  set (lit := firstn (hlit + 257) ll) in *. set (dist := firstn (hdist + 1) dl) in *.
  assert (LLit : length lit = hlit + 257) by (unfold lit; rewrite firstn_length; lia).
  assert (LDist : length dist = hdist + 1) by (unfold dist; rewrite firstn_length; lia).
  set (combined := lit ++ dist).
  assert (LC : length combined = hlit + 257 + hdist + 1) by (unfold combined; rewrite app_length; lia).
  assert (FC : Forall (fun l => l <= 15) combined).
  { unfold combined. apply Forall_app. split; [apply Forall_firstn; exact B1|apply Forall_firstn; exact B2]. }
  set (codes := run_lengths (length combined) [] combined).
  pose proof (run_lengths_codes (length combined) [] combined FC) as RC. fold codes in RC.
  destruct (count_fold codes (repeat 0%Z 19)) as [CL [CF [_ CI]]].
  { reflexivity. } { apply Forall_forall. intros x Hx. apply repeat_spec in Hx. lia. }
  { eapply Forall_impl; [|exact RC]. cbn beta. intros c Hc. apply Hc. }
  fold (count_codes codes) in CL, CF, CI.
  destruct (code_lengths_ok 7 (count_codes codes)) as (cl & E3 & LCL & Z3 & B3 & U3).
  { lia. } { rewrite CL. cbn. lia. } { exact CF. }
  rewrite E3. rewrite CL in LCL, U3.
  assert (CC : Forall (fun c => coded cl (fst (fst c))) codes).
  { apply Forall_forall. intros c Hc. apply Z3. apply CI. exact Hc. }
  assert (NE : codes <> []).
  { unfold codes. rewrite LC. destruct combined as [|x t]; [cbn [length] in LC; lia|].
    replace (hlit + 257 + hdist + 1) with (S (hlit + 257 + hdist)) by lia. cbn [run_lengths].
    destruct (code_length_encode [] (x :: t)) as [[[? ?] ?] ?]. discriminate. }
  assert (UC : usable true cl).
  { apply usable_of.
    - destruct codes as [|c t]; [contradiction|]. inversion CC; subst. eexists. eassumption.
    - rewrite LCL. exact U3. }
  pose proof (cl_lens_sent cl LCL) as CS.
  destruct (hclen_from_spec 19 cl ltac:(lia) ltac:(lia)) as [HC _].
  set (hclen := hclen_from 19 cl - 4) in *.
  set (sent := map (fun b => nth b cl 0) (firstn (hclen + 4) border)) in *.
  assert (B3' : Forall (fun l => l < 8) cl) by (eapply Forall_impl; [|exact B3]; cbn beta; intros; lia).
  assert (N8 : forall b, nth b cl 0 < 8).
  { intros b. destruct (Nat.lt_ge_cases b (length cl)); [|rewrite nth_overflow by assumption; lia].
    rewrite Forall_forall in B3'. apply B3'. apply nth_In. assumption. }
  assert (HH : hlit <= 29) by lia. assert (HH2 : hdist <= 29) by lia. assert (HH3 : hclen <= 15) by (unfold hclen; lia).
  (* the bits *)
  pose proof (put_adds w hlit 5 HW ltac:(lia) ltac:(change (2 ^ 5) with 32; lia)) as A1.
  pose proof (put_adds _ hdist 5 (proj1 A1) ltac:(lia) ltac:(change (2 ^ 5) with 32; lia)) as A2.
  pose proof (put_adds _ hclen 4 (proj1 A2) ltac:(lia) ltac:(change (2 ^ 4) with 16; lia)) as A3.
  set (w3 := put (put (put w hlit 5) hdist 5) hclen 4) in *.
  assert (A4 := fold_put3 cl (firstn (hclen + 4) border) w3 (proj1 A3) ltac:(apply Forall_forall; intros; apply N8)).
  fold sent in A4. set (w4 := fold_left _ (firstn (hclen + 4) border) w3) in *.
  assert (A5 := fold_codes (enc_init cl) cl codes w4 (usable_encodes cl UC) (proj1 A4) CC RC).
  set (w5 := fold_left _ codes w4) in *.
  set (hdr := lsbs 5 (Z.of_nat hlit) ++ lsbs 5 (Z.of_nat hdist) ++ lsbs 4 (Z.of_nat hclen)
              ++ flat_map (fun v => lsbs 3 (Z.of_nat v)) sent ++ flat_map (code_bits cl) codes).
  exists w5, ll, dl, hdr, lit, dist. split; [reflexivity|].
  assert (AH : adds w w5 hdr).
  { unfold hdr. eapply adds_trans; [exact A1|]. eapply adds_trans; [exact A2|]. eapply adds_trans; [exact A3|].
    eapply adds_trans; [exact A4|exact A5]. }
  split; [exact AH|].
  assert (UD : (usable true dist /\ encodes (enc_init dl) dist (coded dl)) \/ (dl = repeat 0 30)).
  { destruct U2 as [U2|[U2|U2]].
    - left. apply sent_lengths; [lia|left; exact U2].
    - left. apply sent_lengths; [lia|right; exact U2].
    - right. rewrite L2 in U2. exact U2. }
  split; [|split].
  - intros s.
    exists hlit, hdist, hclen,
      (lsbs 5 (Z.of_nat hdist) ++ lsbs 4 (Z.of_nat hclen) ++ flat_map (fun v => lsbs 3 (Z.of_nat v)) sent
         ++ flat_map (code_bits cl) codes ++ s),
      (lsbs 4 (Z.of_nat hclen) ++ flat_map (fun v => lsbs 3 (Z.of_nat v)) sent ++ flat_map (code_bits cl) codes ++ s),
      (flat_map (fun v => lsbs 3 (Z.of_nat v)) sent ++ flat_map (code_bits cl) codes ++ s),
      sent, (flat_map (code_bits cl) codes ++ s), combined.
    split; [split; [change (2 ^ 5) with 32; lia|unfold hdr; rewrite <- !app_assoc; reflexivity]|].
    split; [split; [change (2 ^ 5) with 32; lia|reflexivity]|]. split; [split; [change (2 ^ 4) with 16; lia|reflexivity]|].
    split; [intros _; exact HH|].
    split; [unfold sent; rewrite map_length, firstn_length; cbn [length border]; lia|].
    split; [unfold sent; apply Forall_forall; intros x Hx; apply in_map_iff in Hx; destruct Hx as [b [<- _]]; apply N8|].
    split; [reflexivity|]. rewrite CS. split; [exact UC|]. split.
    + rewrite <- LC. apply (run_lengths_spec cl (length combined) [] combined s); [lia|exact FC|exact CC].
    + split; [unfold combined; rewrite <- LLit, firstn_app_exact; reflexivity|].
      split; [unfold combined; rewrite <- LLit, skipn_app_exact; reflexivity|]. split; [exact SU|].
      destruct UD as [[UD _]|UD]; [left; exact UD|right].
      assert (H0 : hdist = 0) by (unfold hdist; rewrite UD; reflexivity).
      split; [unfold dist; rewrite H0, UD; reflexivity|].
      unfold hlit. apply trim_zero. intros i. rewrite nth_skipn_add.
      destruct (Nat.eq_dec (nth (257 + i) ll 0) 0) as [|NZ]; [assumption|exfalso].
      apply Z1 in NZ. rewrite upd_nth_neq in NZ by lia.
      assert (X : (nth (257 + i) lits 0 <= 0)%Z).
      { apply HD; [|lia]. intros j. destruct (Z.le_gt_cases (nth j dists 0%Z) 0) as [|P]; [assumption|exfalso].
        apply Z2 in P. apply P. rewrite UD. apply nth_repeat. }
      lia.
  - intros i v Hi Hv. apply SE; [|exact Hv]. apply Z1. destruct (Nat.eq_dec i 256) as [->|N].
    + rewrite upd_nth_eq by lia. lia.
    + rewrite upd_nth_neq by lia. destruct Hi; [contradiction|assumption].
  - intros j v Hj Hv. apply Z2 in Hj. destruct UD as [[_ UD]|UD]; [apply UD; assumption|].
    exfalso. apply Hj. rewrite UD. apply nth_repeat.
Qed.
