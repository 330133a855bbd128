(** C50-C53: authenticated encryption with GCM, CCM, EAX and ChaCha20-Poly1305. *)
From Coq Require Import ZArith List Bool Arith Lia.
From Verif Require Import Base Blocks HashModel ModesModel MacModel MacSpec Poly1305Model AeadModel AeadSpec AeadProofs AeadGcmProofs AeadRunProofs.
Import ListNotations.
Local Open Scope Z_scope.

(** Objects used in the examples. *)
Definition toy_e (b : list Z) : list Z := map (fun x => (3 * x + 7) mod 256) (rev b).
Definition toy_g (b : list Z) : list Z := map (fun x => x mod 256) b.
Lemma toy_blocks : forall B, on_blocks B toy_e.
Proof.
  intros B b H. unfold toy_e. rewrite map_length, rev_length. split; [exact H|]. apply Forall_forall. intros x Hx. apply in_map_iff in Hx. destruct Hx as (y & <- & _).
  apply Z.mod_pos_bound. lia.
Qed.
Lemma toy_gmul : on_blocks 16 toy_g.
Proof.
  intros b H. unfold toy_g. rewrite map_length. split; [exact H|]. apply Forall_forall. intros x Hx. apply in_map_iff in Hx. destruct Hx as (y & <- & _).
  apply Z.mod_pos_bound. lia.
Qed.
Definition toy_gcm : base gcm := gcm_keyed (repeat 0 16) [] (mkC 0 0 0).
Definition toy_ccm : base ccm := ccm_keyed (repeat 0 16) (repeat 0 16) (mkC 0 0 0).
Definition toy_eax : base eax := eax_keyed toy_e 16 [] [] (mkC 0 0 0).
Definition toy_cblock (iv : list Z) (n : Z) : list Z := map (fun k => (hd 0 iv + n + Z.of_nat k) mod 256) (seq 0 64).
Definition toy_chp : base chp := chp_keyed [] (mkCP (mkP (fun b => b) (mkL 0 0 0 0 0) (mkQ 0 0 0 0) (mkQ 0 0 0 0) (repeat 0 16) 0) [] 0 0).
Lemma toy_objects : aead (gcm_mode toy_e toy_g) (gcm_ideal toy_e toy_g add128) toy_gcm /\ aead (ccm_mode toy_e 12) (ccm_ideal toy_e 12) toy_ccm /\
  aead (eax_mode toy_e 16) (eax_ideal toy_e 16 135) toy_eax /\ aead (chp_mode toy_cblock 12) (chp_ideal toy_cblock 12) toy_chp.
Proof.
  split; [|split; [|split]].
  - apply is_gcm; [apply toy_blocks|apply toy_gmul|reflexivity|apply bytes_repeat0].
  - apply is_ccm; [apply toy_blocks|lia|reflexivity|apply bytes_repeat0|reflexivity].
  - apply is_eax; [apply toy_blocks|reflexivity|constructor].
  - apply is_chp; [|constructor|reflexivity|apply bytes_repeat0|cbn; lia]. intros iv n. unfold toy_cblock. rewrite map_length, seq_length. split; [reflexivity|].
    apply Forall_forall. intros x Hx. apply in_map_iff in Hx. destruct Hx as (y & <- & _). apply Z.mod_pos_bound. lia.
Qed.

(* ---------------------------------------------------------------- C52 *)

(** Every call of every history returns what the ideal object says, whatever the order of the calls. *)
Theorem C52_histories : forall M (md : mode M) id b, aead md id b -> forall forward ops, Forall aop_ok ops ->
  Forall2 meets (spec_arun id forward (PNone true) ops) (snd (arun md forward b ops)).
Proof. exact aead_history. Qed.

(** Without an IV (at first, and again after a tag was computed or checked) nothing is done and BadState is thrown. *)
Theorem C52_no_iv : forall M (md : mode M) id b, aead md id b -> forall forward ops0, Forall aop_ok ops0 -> spec_phase id forward (PNone true) ops0 = PNone true ->
  forall op, aop_ok op -> match op with AUpdate d => d <> [] | AProcess _ => True | AFinal n => (n <= i_digest id)%nat | AVerify t => (length t <= i_digest id)%nat | _ => False end ->
  snd (arun md forward (fst (arun md forward b ops0)) [op]) = [OBadState].
Proof.
  intros M md id b A forward ops0 H0 Hp op Ho Hc.
  pose proof (aead_history _ _ _ _ A forward (ops0 ++ [op]) ltac:(apply Forall_app; auto)) as H. rewrite spec_app, arun_app in H. cbn [snd] in H.
  apply forall2_app_r in H; [|rewrite spec_length, arun_length; reflexivity]. rewrite Hp in H.
  assert (E : spec_arun id forward (PNone true) [op] = map XOut [OBadState]).
  { destruct op as [iv l|d|d|n|t|]; try contradiction; cbn [spec_arun spec_astep].
    - unfold spec_update. destruct d; [contradiction|]. reflexivity.
    - reflexivity.
    - unfold spec_final. rewrite (proj2 (Nat.ltb_ge _ _)) by exact Hc. reflexivity.
    - unfold spec_verify, spec_final. rewrite (proj2 (Nat.ltb_ge _ _)) by exact Hc. reflexivity. }
  rewrite E in H. apply meets_out in H. exact H.
Qed.
Example C52_no_iv_example : spec_phase (gcm_ideal toy_e toy_g add128) true (PNone true) [AStart (repeat 5 12) None; AProcess [1; 2]; AFinal 16] = PNone true /\
  snd (arun (gcm_mode toy_e toy_g) true toy_gcm [AStart (repeat 5 12) None; AProcess [1; 2]; AFinal 16; AProcess [3]; AUpdate [4]; AFinal 16]) <> [] /\
  skipn 3 (snd (arun (gcm_mode toy_e toy_g) true toy_gcm [AStart (repeat 5 12) None; AProcess [1; 2]; AFinal 16; AProcess [3]; AUpdate [4]; AFinal 16])) = [OBadState; OBadState; OBadState].
Proof. split; [vm_compute; reflexivity|]. split; [vm_compute; discriminate|]. vm_compute. reflexivity. Qed.

(** Calls refused with BadState leave no trace: what follows them is as if they had not been made. *)
Theorem C52_refused_calls : forall M (md : mode M) id b, aead md id b -> forall forward ops0 bad ops1,
  Forall aop_ok ops0 -> Forall aop_ok bad -> Forall aop_ok ops1 ->
  Forall (fun op => snd (spec_astep id forward (spec_phase id forward (PNone true) ops0) op) = XOut OBadState) bad ->
  snd (arun md forward (fst (arun md forward b ops0)) bad) = map (fun _ => OBadState) bad /\
  Forall2 meets (spec_arun id forward (spec_phase id forward (PNone true) ops0) ops1) (snd (arun md forward (fst (arun md forward b (ops0 ++ bad))) ops1)).
Proof.
  intros M md id b A forward ops0 bad ops1 H0 H1 H2 Hb. set (ph := spec_phase id forward (PNone true) ops0) in *.
  assert (K : forall op, snd (spec_astep id forward ph op) = XOut OBadState -> fst (spec_astep id forward ph op) = ph).
  { intros op. destruct op as [iv l|d|d|n|t|]; cbn [spec_astep].
    - unfold spec_start. destruct (match ph with PNone _ => true | _ => i_fresh id end); [|discriminate]. destruct (i_iv_ok id (length iv)); [|discriminate].
      destruct l as [[h m]|]; [|destruct (i_needs id); discriminate]. destruct (_ || _); destruct (i_needs id); discriminate.
    - unfold spec_update. destruct (Nat.eqb _ _); [discriminate|]. destruct ph; try (cbn [fst snd]; auto; fail); try discriminate.
      + destruct (_ <? _); discriminate.
      + destruct (right_m _ _ _); [destruct (_ <? _); discriminate|discriminate].
      + destruct (_ <? _); discriminate.
    - unfold spec_process. destruct ph; try (cbn [fst snd]; auto; fail); try discriminate; destruct (_ <? _); try discriminate. destruct (right_h _ _ _); discriminate.
    - unfold spec_final. destruct (Nat.ltb _ _); [discriminate|]. destruct ph as [[|]|iv l hdr|iv l hdr inp| |]; try (cbn [fst snd]; auto; fail); try discriminate; destruct (_ <? _); try discriminate.
      + destruct (right_h _ _ _); [destruct (right_m _ _ _)|]; discriminate.
      + destruct (right_m _ _ _); discriminate.
    - unfold spec_verify, spec_final. destruct (Nat.ltb _ _); [discriminate|]. destruct ph as [[|]|iv l hdr|iv l hdr inp| |]; try (cbn [fst snd]; auto; fail); try discriminate; destruct (_ <? _); try discriminate.
      + destruct (right_h _ _ _); [destruct (right_m _ _ _)|]; discriminate.
      + destruct (right_m _ _ _); discriminate.
    - discriminate. }
  assert (P : spec_arun id forward ph bad = map XOut (map (fun _ => OBadState) bad) /\ spec_phase id forward ph bad = ph).
  { clear H1. induction bad as [|op bad IH]; [split; reflexivity|]. inversion Hb as [|? ? E1 E2]; subst. cbn [spec_arun spec_phase map]. pose proof (K op E1) as E3.
    destruct (spec_astep id forward ph op) as [ph1 x]. cbn [fst snd] in *. subst ph1 x. destruct (IH E2) as [-> ->]. split; reflexivity. }
  destruct P as [P1 P2].
  pose proof (aead_history _ _ _ _ A forward ((ops0 ++ bad) ++ ops1) ltac:(rewrite !Forall_app; auto)) as H. rewrite spec_app, arun_app in H. cbn [snd] in H.
  split.
  - pose proof (aead_history _ _ _ _ A forward (ops0 ++ bad) ltac:(rewrite !Forall_app; auto)) as G. rewrite spec_app, arun_app in G. cbn [snd] in G.
    apply forall2_app_r in G; [|rewrite spec_length, arun_length; reflexivity]. fold ph in G. rewrite P1 in G. apply meets_out in G. exact G.
  - apply forall2_app_r in H; [|rewrite spec_length, arun_length; reflexivity].
    assert (E : spec_phase id forward (PNone true) (ops0 ++ bad) = ph).
    { assert (Q : forall o1 o2 q, spec_phase id forward q (o1 ++ o2) = spec_phase id forward (spec_phase id forward q o1) o2) by (induction o1; intros; cbn [app spec_phase]; auto).
      rewrite Q. fold ph. exact P2. }
    rewrite E in H. exact H.
Qed.
Example C52_refused_calls_example : Forall (fun op => snd (spec_astep (eax_ideal toy_e 16 135) true (spec_phase (eax_ideal toy_e 16 135) true (PNone true) []) op) = XOut OBadState) [AProcess [1]; AUpdate [2]; AFinal 4].
Proof. repeat constructor. Qed.

(** Header data after message data are not refused by the call itself; they are taken as footer data. *)
Theorem C52_header_after_message_refuted : exists M (md : mode M) id b, aead md id b /\
  nth 2 (snd (arun md true b [AStart (repeat 5 12) None; AProcess [1; 2]; AUpdate [3]])) OBadState = ODone.
Proof. exists gcm, (gcm_mode toy_e toy_g), (gcm_ideal toy_e toy_g add128), toy_gcm. split; [apply toy_objects|]. vm_compute. reflexivity. Qed.
(** But then no tag is produced and nothing verifies until a new message is started: every mode, any further calls. *)
Theorem C52_header_after_message : forall M (md : mode M) id b, aead md id b -> forall forward ops0, i_ready id forward ops0 ->
  forall iv l hs m ms d lst, bytes iv -> Forall bytes hs -> Forall bytes (m :: ms) -> bytes d -> d <> [] -> len64 d < 2 ^ 64 -> aop_ok lst ->
  i_fits id iv (concat hs) (concat (m :: ms)) -> i_announced id iv l (concat hs) (concat (m :: ms)) ->
  match lst with AProcess _ | AFinal _ | AVerify _ => True | _ => False end ->
  exists o, (o = OBadState \/ o = OInvalid) /\
  snd (arun md forward (fst (arun md forward (fst (arun md forward b ops0)) (AStart iv l :: map AUpdate hs ++ map AProcess (m :: ms) ++ [AUpdate d]))) [lst]) = [o].
Proof.
  intros M md id b A forward ops0 R iv l hs m ms d lst Biv Bh Bm Bd Hd Ld Hl Hf Ha Hlst.
  pose proof (aead_max _ _ _ _ A) as Hx. pose proof (aead_maxm _ _ _ _ A iv (proj1 Hf)) as Hy. destruct R as [R1 R2].
  set (ops1 := AStart iv l :: map AUpdate hs ++ map AProcess (m :: ms) ++ [AUpdate d]).
  assert (Hok : Forall aop_ok ops1).
  { eapply msg_ops_ok with (h := i_maxh id) (m := i_maxm id iv); [repeat split; assumption|exact Bd| |exact Hx|exact Hy]. destruct l as [[x y]|]; [|exact I]. cbn [i_announced] in Ha. tauto. }
  assert (Q : forall o1 o2 q, spec_phase id forward q (o1 ++ o2) = spec_phase id forward (spec_phase id forward q o1) o2) by (induction o1; intros; cbn [app spec_phase]; auto).
  assert (P : spec_phase id forward (PNone true) (ops0 ++ ops1) = PFoot (len64 d)).
  { destruct (spec_message id forward (spec_phase id forward (PNone true) ops0) iv l hs (m :: ms) (AUpdate d) R2 Hf Hx Ha) as (outs & E1 & E2 & E3 & E4 & E5).
    rewrite Q. set (q := spec_phase id forward (PNone true) ops0) in *. unfold ops1. cbn [spec_phase spec_astep].
    assert (Eph : (match q with PNone _ => true | _ => i_fresh id end) = true) by (destruct q; auto).
    assert (S : spec_start id q iv l = (PHead iv l [], XOut ODone)).
    { unfold spec_start. rewrite Eph, (proj1 Hf). destruct l as [[h mm]|]; cbn [i_announced] in Ha; [|rewrite Ha; reflexivity]. destruct Ha as (A1 & A2 & _).
      destruct (Z.ltb_spec (i_maxh id) h), (Z.ltb_spec (i_maxm id iv) mm); try lia. reflexivity. }
    rewrite S. cbn [fst]. rewrite Q.
    assert (SH : forall hs hdr, len64 (hdr ++ concat hs) < 2 ^ 64 -> spec_phase id forward (PHead iv l hdr) (map AUpdate hs) = PHead iv l (hdr ++ concat hs)).
    { clear. induction hs as [|x hs IH]; intros hdr H; cbn [map concat spec_phase spec_astep] in *; [rewrite app_nil_r; reflexivity|].
      assert (E : fst (spec_update id (PHead iv l hdr) x) = PHead iv l (hdr ++ x)).
      { unfold spec_update. destruct (Nat.eqb_spec (length x) 0) as [Z0|Z0]; [apply length_zero_iff_nil in Z0; subst; rewrite app_nil_r; reflexivity|].
        destruct (Z.ltb_spec (len64 (hdr ++ x)) (2 ^ 64)) as [|X]; [reflexivity|]. rewrite !len64_app in *. pose proof (len64_nonneg (concat hs)). lia. }
      rewrite E, IH by (rewrite <- app_assoc; exact H). rewrite <- app_assoc. reflexivity. }
    destruct Hf as (F1 & F2 & F3). rewrite SH by (cbn [app]; lia). cbn [app]. rewrite Q.
    assert (SB : forall ms inp, len64 (inp ++ concat ms) <= i_maxm id iv -> spec_phase id forward (PBody iv l (concat hs) inp) (map AProcess ms) = PBody iv l (concat hs) (inp ++ concat ms)).
    { clear. induction ms as [|x ms IH]; intros inp H; cbn [map concat spec_phase spec_astep] in *; [rewrite app_nil_r; reflexivity|].
      assert (E : fst (spec_process id (PBody iv l (concat hs) inp) x) = PBody iv l (concat hs) (inp ++ x)).
      { unfold spec_process. destruct (Z.ltb_spec (i_maxm id iv) (len64 inp + len64 x)); [|reflexivity]. rewrite !len64_app in *. pose proof (len64_nonneg (concat ms)). lia. }
      rewrite E, IH by (rewrite <- app_assoc; exact H). rewrite <- app_assoc. reflexivity. }
    cbn [map spec_phase spec_astep]. assert (E0 : fst (spec_process id (PHead iv l (concat hs)) m) = PBody iv l (concat hs) m).
    { unfold spec_process. rewrite E4. cbn [concat] in F3. rewrite len64_app in F3. pose proof (len64_nonneg (concat ms)). destruct (Z.ltb_spec (i_maxm id iv) (len64 m)); [lia|reflexivity]. }
    rewrite E0, SB by exact F3. cbn [spec_phase spec_astep]. unfold spec_update. destruct d as [|x d]; [contradiction|]. cbn [length Nat.eqb].
    cbn [concat] in E5. rewrite E5. destruct (Z.ltb_spec (len64 (x :: d)) (2 ^ 64)); [reflexivity|lia]. }
  pose proof (aead_history _ _ _ _ A forward ((ops0 ++ ops1) ++ [lst]) ltac:(rewrite !Forall_app; auto)) as H. rewrite spec_app, (arun_app _ _ _ (ops0 ++ ops1)) in H. cbn [snd] in H.
  apply forall2_app_r in H; [|rewrite spec_length, arun_length; reflexivity]. rewrite P in H. rewrite arun_app in H. cbn [fst] in H.
  remember (snd (arun md forward (fst (arun md forward (fst (arun md forward b ops0)) ops1)) [lst])) as r. cbn [spec_arun] in H.
  destruct (spec_astep id forward (PFoot (len64 d)) lst) as [ph1 x] eqn:Ex. inversion H as [|? y ? ? Hm Hn]; subst. inversion Hn; subst. exists y. split; [|reflexivity].
  destruct lst as [iv2 l2|d2|d2|n2|t2|]; try contradiction; cbn [spec_astep] in Ex.
  - cbn [spec_process] in Ex. injection Ex as <- <-. exact Hm.
  - unfold spec_final in Ex. destruct (Nat.ltb _ _); injection Ex as <- <-; cbn [meets] in Hm; auto.
  - unfold spec_verify, spec_final in Ex. destruct (Nat.ltb _ _); injection Ex as <- <-; cbn [meets] in Hm; auto.
Qed.
Example C52_header_after_message_example : i_fits (gcm_ideal toy_e toy_g add128) (repeat 5 12) [1] [2; 3] /\ i_announced (gcm_ideal toy_e toy_g add128) (repeat 5 12) None [1] [2; 3] /\
  skipn 4 (snd (arun (gcm_mode toy_e toy_g) true toy_gcm [AStart (repeat 5 12) None; AUpdate [1]; AProcess [2; 3]; AUpdate [4]; AFinal 16; AProcess [5]; AVerify [1; 2]])) = [OInvalid; OBadState; OInvalid].
Proof. split; [vm_compute; repeat split; discriminate|]. split; [reflexivity|]. vm_compute. reflexivity. Qed.

(** EAX does not clear its MAC: a new IV before the old message was finished does not start a new message. *)
Theorem C52_eax_restart_refuted : exists M (md : mode M) id b iv, aead md id b /\ i_iv_ok id (length iv) = true /\
  nth 4 (snd (arun md true b [AStart iv None; AProcess [1; 2]; ARestart; AStart iv None; AFinal 16])) OBadState <>
  nth 1 (snd (arun md true b [AStart iv None; AFinal 16])) OBadState.
Proof.
  exists eax, (eax_mode toy_e 16), (eax_ideal toy_e 16 135), toy_eax, [9]. split; [apply toy_objects|]. split; [reflexivity|]. vm_compute. discriminate.
Qed.
(** The other three do: after Restart, or without it, in the middle of anything, a new IV starts a new message. *)
Theorem C52_restart : forall M (md : mode M) id b, aead md id b -> i_fresh id = true -> forall forward ops0, Forall aop_ok ops0 ->
  forall iv l hs ms n, bytes iv -> Forall bytes hs -> Forall bytes ms -> (n <= i_digest id)%nat ->
  i_fits id iv (concat hs) (concat ms) -> i_announced id iv l (concat hs) (concat ms) ->
  exists outs, concat outs = i_crypt id iv 0 (concat ms) /\
  snd (arun md forward (fst (arun md forward b ops0)) (AStart iv l :: map AUpdate hs ++ map AProcess ms ++ [AFinal n])) =
    ODone :: map (fun _ => ODone) hs ++ map OBytes outs ++ [OBytes (firstn n (i_tag id iv (concat hs) (i_text id forward iv (concat ms))))].
Proof.
  intros M md id b A Hfr forward ops0 H0 iv l hs ms n Biv Bh Bm Hn Hf Ha.
  assert (R : i_ready id forward ops0) by (split; [exact H0|]; destruct (spec_phase id forward (PNone true) ops0); auto).
  destruct (message_run _ md id b A forward ops0 R iv l hs ms (AFinal n) (conj Biv (conj Bh Bm)) I Hf Ha) as (outs & o & E1 & E2 & E3 & E4 & E5 & E6).
  exists outs. split; [exact E1|]. rewrite E5. cbn [spec_astep] in E6. rewrite final_out in E6 by auto. cbn [meets] in E6. subst o. reflexivity.
Qed.
Example C52_restart_example : i_fresh (gcm_ideal toy_e toy_g add128) = true /\ i_fresh (ccm_ideal toy_e 12) = true /\ i_fresh (chp_ideal toy_cblock 12) = true /\ i_fresh (eax_ideal toy_e 16 135) = false /\
  last (snd (arun (gcm_mode toy_e toy_g) true toy_gcm [AStart (repeat 5 12) None; AProcess [1; 2]; AStart (repeat 5 12) None; AFinal 16])) OBadState =
  last (snd (arun (gcm_mode toy_e toy_g) true toy_gcm [AStart (repeat 5 12) None; AFinal 16])) OBadState.
Proof. do 4 (split; [reflexivity|]). vm_compute. reflexivity. Qed.

(* ---------------------------------------------------------------- C51 *)

(** Header and message in any pieces: the ciphertext pieces join to the ciphertext of the whole, piece by piece as long as the
    plaintext pieces, and the tag is that of the whole; after any earlier history of the object. *)
Theorem C51_pieces : forall M (md : mode M) id b, aead md id b -> forall forward ops0, i_ready id forward ops0 ->
  forall iv l hs ms n, bytes iv -> Forall bytes hs -> Forall bytes ms -> (n <= i_digest id)%nat ->
  i_fits id iv (concat hs) (concat ms) -> i_announced id iv l (concat hs) (concat ms) ->
  exists outs, concat outs = i_crypt id iv 0 (concat ms) /\ map (@length Z) outs = map (@length Z) ms /\
  snd (arun md forward (fst (arun md forward b ops0)) (AStart iv l :: map AUpdate hs ++ map AProcess ms ++ [AFinal n])) =
    ODone :: map (fun _ => ODone) hs ++ map OBytes outs ++ [OBytes (firstn n (i_tag id iv (concat hs) (i_text id forward iv (concat ms))))].
Proof.
  intros M md id b A forward ops0 R iv l hs ms n Biv Bh Bm Hn Hf Ha.
  destruct (message_run _ md id b A forward ops0 R iv l hs ms (AFinal n) (conj Biv (conj Bh Bm)) I Hf Ha) as (outs & o & E1 & E2 & E3 & E4 & E5 & E6).
  exists outs. split; [exact E1|]. split; [exact E2|]. rewrite E5. cbn [spec_astep] in E6. rewrite final_out in E6 by auto. cbn [meets] in E6. subst o. reflexivity.
Qed.
Example C51_pieces_example :
  i_fits (ccm_ideal toy_e 12) (repeat 5 12) (concat [[1]; []; [2; 3]]) (concat [[4; 5]; [6]]) /\ i_announced (ccm_ideal toy_e 12) (repeat 5 12) (Some (3, 3)) (concat [[1]; []; [2; 3]]) (concat [[4; 5]; [6]]) /\
  last (snd (arun (ccm_mode toy_e 12) true toy_ccm (AStart (repeat 5 12) (Some (3, 3)) :: map AUpdate [[1]; []; [2; 3]] ++ map AProcess [[4; 5]; [6]] ++ [AFinal 12]))) OBadState =
  last (snd (arun (ccm_mode toy_e 12) true toy_ccm [AStart (repeat 5 12) (Some (3, 3)); AUpdate [1; 2; 3]; AProcess [4; 5; 6]; AFinal 12])) OBadState.
Proof. split; [vm_compute; repeat split; discriminate|]. split; [vm_compute; repeat split; discriminate|]. vm_compute. reflexivity. Qed.

(** The ideal GCM above takes the first message counter from J0 by a 128-bit increment.  That is the standard's, unless the
    last four bytes of J0 are all ones; a 12-byte IV never gives such a J0. *)
Theorem C51_gcm_standard : forall e gmul iv, (be_val (gcm_j0 gmul iv)) mod 2 ^ 32 <> 2 ^ 32 - 1 -> 0 <= be_val (gcm_j0 gmul iv) < 2 ^ 128 ->
  forall p d, i_crypt (gcm_ideal e gmul add128) iv p d = i_crypt (gcm_ideal e gmul inc32) iv p d.
Proof.
  intros e gmul iv H Hb p d. unfold i_crypt. f_equal. apply map_ext. intros k. cbn [gcm_ideal i_stream]. unfold gcm_keystream. do 2 f_equal. unfold gcm_counter. do 2 f_equal.
  unfold add128, inc32. set (v := be_val (gcm_j0 gmul iv)) in *. pose proof (Z.div_mod v (2 ^ 32) ltac:(lia)) as D. pose proof (Z.mod_pos_bound v (2 ^ 32) ltac:(lia)) as Hm.
  assert (V : v + 1 < 2 ^ 128) by (assert (v <> 2 ^ 128 - 1) by (intros E; apply H; rewrite E; reflexivity); lia).
  change (256 ^ 16) with (2 ^ 128). rewrite (Z.mod_small (v + 1)) by lia.
  assert (M1 : (v + 1) mod 2 ^ 32 = v mod 2 ^ 32 + 1).
  { rewrite <- Zplus_mod_idemp_l. apply Z.mod_small. lia. }
  rewrite M1. lia.
Qed.
Theorem C51_gcm_standard_12 : forall e gmul iv, length iv = 12%nat -> bytes iv ->
  forall p d, i_crypt (gcm_ideal e gmul add128) iv p d = i_crypt (gcm_ideal e gmul inc32) iv p d.
Proof.
  intros e gmul iv L B. assert (V : be_val (gcm_j0 gmul iv) = be_val iv * 2 ^ 32 + 1).
  { unfold gcm_j0. rewrite L. cbn [Nat.eqb]. rewrite be_val_app. reflexivity. }
  pose proof (be_val_bounds iv B) as X. rewrite L in X. change (256 ^ Z.of_nat 12) with (2 ^ 96) in X. apply C51_gcm_standard; rewrite V.
  - rewrite Z.add_comm, Z.mod_add by lia. vm_compute. discriminate.
  - change (2 ^ 128) with (2 ^ 96 * 2 ^ 32). lia.
Qed.
(** GCM with such an IV does not encrypt as the standard says. *)
Definition gcm_bad_iv : list Z := repeat 0 12 ++ [255; 255; 255; 127].
Theorem C51_gcm_counter_refuted : exists e gmul b iv message, aead (gcm_mode e gmul) (gcm_ideal e gmul add128) b /\ i_fits (gcm_ideal e gmul inc32) iv [] message /\
  nth 1 (snd (arun (gcm_mode e gmul) true b [AStart iv None; AProcess message])) OBadState <> OBytes (i_crypt (gcm_ideal e gmul inc32) iv 0 message).
Proof.
  exists toy_e, toy_g, toy_gcm, gcm_bad_iv, (repeat 1 8). split; [apply toy_objects|]. split; [vm_compute; repeat split; discriminate|]. vm_compute. discriminate.
Qed.
(** The loop that makes GCM's counter blocks 256 at a time gives the blocks of the standard's inc32. *)
Theorem C51_gcm_counter_loop : forall e c n, length c = 16%nat -> bytes c ->
  snd (gctr_loop e n c n) = map (fun j => e (gcm_counter (be_val c) j)) (seq 0 n).
Proof.
  intros e c n Lc Bc. rewrite gctr_loop_spec by auto. cbn [snd]. apply map_ext. intros j. f_equal. unfold gcm_counter. f_equal. symmetry. apply iter_inc32. apply be_val_bounds. exact Bc.
Qed.
Example C51_gcm_counter_loop_example : gctr_loop (fun b => b) 3 (repeat 9 12 ++ [255; 255; 255; 254]) 3 =
  (repeat 9 12 ++ [0; 0; 0; 1], [repeat 9 12 ++ [255; 255; 255; 254]; repeat 9 12 ++ [255; 255; 255; 255]; repeat 9 12 ++ [0; 0; 0; 0]]).
Proof. vm_compute. reflexivity. Qed.

(* ---------------------------------------------------------------- C50 *)

(** What one object encrypted, in any pieces, another with the same key decrypts, in any other pieces, and accepts. *)
Theorem C50_round_trip : forall M (md : mode M) id b1 b2, aead md id b1 -> aead md id b2 -> forall ops1 ops2, i_ready id true ops1 -> i_ready id false ops2 ->
  forall iv l hs ms n, bytes iv -> Forall bytes hs -> Forall bytes ms -> (n <= i_digest id)%nat ->
  i_fits id iv (concat hs) (concat ms) -> i_announced id iv l (concat hs) (concat ms) ->
  exists cs tag,
    snd (arun md true (fst (arun md true b1 ops1)) (AStart iv l :: map AUpdate hs ++ map AProcess ms ++ [AFinal n])) =
      ODone :: map (fun _ => ODone) hs ++ map OBytes cs ++ [OBytes tag] /\
    forall hs2 cs2, concat hs2 = concat hs -> concat cs2 = concat cs -> Forall bytes hs2 -> Forall bytes cs2 ->
      exists ps, concat ps = concat ms /\
      snd (arun md false (fst (arun md false b2 ops2)) (AStart iv l :: map AUpdate hs2 ++ map AProcess cs2 ++ [AVerify tag])) =
        ODone :: map (fun _ => ODone) hs2 ++ map OBytes ps ++ [OBool true].
Proof.
  intros M md id b1 b2 A1 A2 ops1 ops2 R1 R2 iv l hs ms n Biv Bh Bm Hn Hf Ha.
  destruct (C51_pieces M md id b1 A1 true ops1 R1 iv l hs ms n Biv Bh Bm Hn Hf Ha) as (cs & E1 & E2 & E3).
  eexists cs, _. split; [exact E3|]. intros hs2 cs2 Eh Ec Bh2 Bc2.
  assert (LC : len64 (concat cs2) = len64 (concat ms)) by (unfold len64; rewrite Ec, E1, crypt_length; reflexivity).
  assert (Hf2 : i_fits id iv (concat hs2) (concat cs2)) by (destruct Hf as (F1 & F2 & F3); split; [exact F1|split; [rewrite Eh; exact F2|rewrite LC; exact F3]]).
  assert (Ha2 : i_announced id iv l (concat hs2) (concat cs2)) by (unfold i_announced in *; destruct l as [[h m]|]; [rewrite Eh, LC|]; exact Ha).
  destruct (message_run _ md id b2 A2 false ops2 R2 iv l hs2 cs2 (AVerify (firstn n (i_tag id iv (concat hs) (i_text id true iv (concat ms))))) (conj Biv (conj Bh2 Bc2)) I Hf2 Ha2)
    as (ps & o & P1 & P2 & P3 & P4 & P5 & P6).
  exists ps. split; [rewrite P1, Ec, E1; apply crypt_crypt|]. rewrite P5. do 4 f_equal. cbn [spec_astep] in P6. unfold spec_verify in P6. set (T := i_tag id iv (concat hs) _) in *.
  assert (Hn2 : (length (firstn n T) <= i_digest id)%nat) by (rewrite firstn_length; lia).
  pose proof (final_out id false iv l hs2 cs2 (length (firstn n T)) Hf2 P3 P4 Hn2) as F. destruct (spec_final id false _ _) as [ph x]. cbn [snd] in *. subst x. cbn [meets] in P6.
  assert (ET : i_tag id iv (concat hs2) (i_text id false iv (concat cs2)) = T).
  { unfold T. rewrite Eh. f_equal. unfold i_text. rewrite Ec, E1. destruct (i_on_plain id); cbn [Bool.eqb]; [apply crypt_crypt|reflexivity]. }
  rewrite ET in P6. destruct (list_eq_dec Z.eq_dec (firstn (length (firstn n T)) T) (firstn n T)) as [_|Ne]; [subst o; reflexivity|].
  exfalso. apply Ne. rewrite firstn_length. destruct (Nat.le_gt_cases n (length T)); [rewrite Nat.min_l by lia; reflexivity|]. rewrite Nat.min_r, firstn_all, firstn_all2 by lia. reflexivity.
Qed.

Lemma crypt_bytes : forall M (md : mode M) id b, aead md id b -> forall iv p d, i_iv_ok id (length iv) = true -> bytes d -> bytes (i_crypt id iv p d).
Proof.
  intros M md id b A iv p d Hiv Bd. assert (Y : forall l k, bytes l -> byte (nth k l 0)).
  { intros l k Hl. destruct (Nat.lt_ge_cases k (length l)); [apply Forall_nth; auto|]. rewrite nth_overflow by lia. unfold byte. lia. }
  unfold i_crypt. apply xorl_bytes; [exact Bd|]. apply Forall_forall. intros x Hx. apply in_map_iff in Hx. destruct Hx as (k & <- & _).
  destruct A as [e gmul junk hash c He Hg Lj Bj|e t junk cbc c He Ht Lj Bj Lc|e B q junk n c He Hq Bj|cblock ivsize junk m Hc Bj Lm Bm Im]; cbn [gcm_ideal ccm_ideal eax_ideal chp_ideal i_stream i_iv_ok] in *; apply Y.
  - apply He. apply be_bytes_length.
  - apply He. unfold ccm_counter, ccm_q. cbn [length]. rewrite app_length, be_bytes_length. apply andb_true_iff in Hiv. destruct Hiv as [_ Hiv]. apply Nat.leb_le in Hiv. lia.
  - apply He. apply be_bytes_length.
  - apply Hc.
Qed.

(** The one-call functions.  [lengths]: whether they announce the lengths, as all but ChaCha20Poly1305's do. *)
Lemma calls_ok : forall M (md : mode M) f ops b, Forall (fun o => o <> OBadState /\ o <> OInvalid) (snd (arun md f b ops)) -> acalls md f b ops = arun md f b ops.
Proof.
  induction ops as [|op ops IH]; intros b H; [reflexivity|]. cbn [acalls arun] in *. destruct (astep md f b op) as [b1 o]. specialize (IH b1).
  destruct (arun md f b1 ops) as [b2 os]. cbn [snd] in *. inversion H as [|? ? [N1 N2] H2]; subst. rewrite IH by exact H2. destruct o; try contradiction; reflexivity.
Qed.
Lemma announce_ok : forall id iv header message (lengths : bool), i_fits id iv header message -> (lengths = true \/ i_needs id = false) ->
  i_announced id iv (if lengths then Some (len64 header, len64 message) else None) (concat [header]) (concat [message]).
Proof.
  intros id iv header message lengths (F1 & F2 & F3) H. cbn [concat]. rewrite !app_nil_r. destruct lengths; cbn [i_announced].
  - unfold len64 in *. repeat split; lia.
  - destruct H as [H|H]; [discriminate|exact H].
Qed.
Theorem C50_one_call : forall M (md : mode M) id b1 b2, aead md id b1 -> aead md id b2 -> forall ops1 ops2, i_ready id true ops1 -> i_ready id false ops2 ->
  forall lengths iv header message n, (lengths = true \/ i_needs id = false) -> bytes iv -> bytes header -> bytes message -> (n <= i_digest id)%nat -> i_fits id iv header message ->
  exists c tag, length c = length message /\
    snd (encrypt_and_authenticate md true lengths (fst (arun md true b1 ops1)) n iv header message) = [ODone; ODone; OBytes c; OBytes tag] /\
    snd (decrypt_and_verify md false lengths (fst (arun md false b2 ops2)) tag iv header c) = [ODone; ODone; OBytes message; OBool true].
Proof.
  intros M md id b1 b2 A1 A2 ops1 ops2 R1 R2 lengths iv header message n Hl Biv Bh Bm Hn Hf.
  pose proof (announce_ok id iv header message lengths Hf Hl) as Ha. set (l := if lengths then _ else None) in *.
  assert (Hf2 : i_fits id iv (concat [header]) (concat [message])) by (cbn [concat]; rewrite !app_nil_r; exact Hf).
  destruct (C50_round_trip M md id b1 b2 A1 A2 ops1 ops2 R1 R2 iv l [header] [message] n Biv (Forall_cons _ Bh (Forall_nil _)) (Forall_cons _ Bm (Forall_nil _)) Hn Hf2 Ha) as (cs & tag & E1 & E2).
  destruct (C51_pieces M md id b1 A1 true ops1 R1 iv l [header] [message] n Biv (Forall_cons _ Bh (Forall_nil _)) (Forall_cons _ Bm (Forall_nil _)) Hn Hf2 Ha) as (cs' & D1 & D2 & D3).
  cbn [map app] in *. rewrite D3 in E1. assert (Ecs : cs = cs').
  { injection E1 as E1. apply app_inj_tail in E1. destruct E1 as [E1 _]. clear - E1. revert cs E1. induction cs' as [|x cs' IH]; intros [|y cs] E; try discriminate E; [reflexivity|].
    cbn [map] in E. injection E as -> E. f_equal. auto. }
  subst cs'. destruct cs as [|c [|? ?]]; try discriminate D2. injection D2 as D2. exists c, tag. split; [exact D2|].
  cbn [map app] in *. rewrite E1 in D3. split.
  - unfold encrypt_and_authenticate. rewrite calls_ok; fold l; rewrite D3; [reflexivity|]. repeat constructor; discriminate.
  - assert (Bc : bytes c).
    { cbn [concat] in D1. rewrite !app_nil_r in D1. rewrite D1. apply (crypt_bytes _ _ _ _ A1); [apply Hf|exact Bm]. }
    destruct (E2 [header] [c] eq_refl eq_refl (Forall_cons _ Bh (Forall_nil _)) (Forall_cons _ Bc (Forall_nil _))) as (ps & P1 & P2).
    assert (Hf3 : i_fits id iv (concat [header]) (concat [c])).
    { destruct Hf2 as (F1 & F2 & F3). split; [exact F1|]. split; [exact F2|]. cbn [concat] in *. rewrite !app_nil_r in *. unfold len64 in *. rewrite D2. exact F3. }
    assert (Ha3 : i_announced id iv l (concat [header]) (concat [c])).
    { unfold i_announced in *. destruct l as [[h m]|]; [|exact Ha]. cbn [concat] in *. rewrite !app_nil_r in *. unfold len64 in *. rewrite D2. exact Ha. }
    destruct (message_run _ md id b2 A2 false ops2 R2 iv l [header] [c] (AVerify tag) (conj Biv (conj (Forall_cons _ Bh (Forall_nil _)) (Forall_cons _ Bc (Forall_nil _)))) I Hf3 Ha3)
      as (qs & o & Q1 & Q2 & _ & _ & Q5 & _).
    cbn [map app] in *. rewrite Q5 in P2. destruct qs as [|q [|? ?]]; try discriminate Q2. cbn [map app] in *. injection P2 as P2.
    destruct ps as [|p [|? ?]]; cbn [map app] in P2; try discriminate P2; [|exfalso; apply (f_equal (@length aout)) in P2; cbn [length] in P2; rewrite app_length in P2; cbn [length] in P2; lia]. injection P2 as -> ->. cbn [concat] in P1. rewrite !app_nil_r in P1. subst p.
    unfold decrypt_and_verify. assert (El : (if lengths then Some (len64 header, len64 c) else None) = l) by (unfold l, len64; rewrite D2; reflexivity).
    rewrite calls_ok; rewrite El, Q5; [reflexivity|]. repeat constructor; discriminate.
Qed.
Example C50_one_call_example : i_fits (ccm_ideal toy_e 12) (repeat 5 12) [1; 2] [4; 5; 6] /\ i_fits (eax_ideal toy_e 16 135) [9] [1; 2] [4; 5; 6] /\ i_fits (chp_ideal toy_cblock 12) (repeat 5 12) [1; 2] [4; 5; 6] /\
  snd (decrypt_and_verify (eax_mode toy_e 16) false true toy_eax (firstn 8 (i_tag (eax_ideal toy_e 16 135) [9] [1; 2] (i_crypt (eax_ideal toy_e 16 135) [9] 0 [4; 5; 6]))) [9] [1; 2] (i_crypt (eax_ideal toy_e 16 135) [9] 0 [4; 5; 6]))
    = [ODone; ODone; OBytes [4; 5; 6]; OBool true].
Proof. do 3 (split; [vm_compute; repeat split; discriminate|]). vm_compute. reflexivity. Qed.

(* ---------------------------------------------------------------- C53 *)

(** Verification accepts exactly the tag of what was decrypted. *)
Theorem C53_verify : forall M (md : mode M) id b, aead md id b -> forall ops0, i_ready id false ops0 ->
  forall iv l hs cs tag, bytes iv -> Forall bytes hs -> Forall bytes cs -> (length tag <= i_digest id)%nat ->
  i_fits id iv (concat hs) (concat cs) -> i_announced id iv l (concat hs) (concat cs) ->
  exists ps v, concat ps = i_crypt id iv 0 (concat cs) /\
  snd (arun md false (fst (arun md false b ops0)) (AStart iv l :: map AUpdate hs ++ map AProcess cs ++ [AVerify tag])) =
    ODone :: map (fun _ => ODone) hs ++ map OBytes ps ++ [OBool v] /\
  (v = true <-> tag = firstn (length tag) (i_tag id iv (concat hs) (if i_on_plain id then concat ps else concat cs))).
Proof.
  intros M md id b A ops0 R iv l hs cs tag Biv Bh Bc Hn Hf Ha.
  destruct (message_run _ md id b A false ops0 R iv l hs cs (AVerify tag) (conj Biv (conj Bh Bc)) I Hf Ha) as (ps & o & E1 & E2 & E3 & E4 & E5 & E6).
  cbn [spec_astep] in E6. unfold spec_verify in E6. pose proof (final_out id false iv l hs cs (length tag) Hf E3 E4 Hn) as F. destruct (spec_final id false _ _) as [ph x]. cbn [snd] in *. subst x.
  cbn [meets] in E6. eexists ps, _. split; [exact E1|]. split; [rewrite E5, E6; reflexivity|]. unfold i_text. rewrite E1. clear E6.
  destruct (i_on_plain id); cbn [Bool.eqb]; destruct (list_eq_dec Z.eq_dec _ tag) as [Y|Y]; split; intros Q; auto; try discriminate Q; exfalso; apply Y; symmetry; exact Q.
Qed.
(** The same in one call and against the sender: DecryptAndVerify returns true exactly when the tag is the one that
    EncryptAndAuthenticate, given the decrypted message, puts out with the same ciphertext. *)
Theorem C53_sender : forall M (md : mode M) id b1 b2, aead md id b1 -> aead md id b2 -> forall ops1 ops2, i_ready id true ops1 -> i_ready id false ops2 ->
  forall lengths iv header c tag, (lengths = true \/ i_needs id = false) -> bytes iv -> bytes header -> bytes c -> (length tag <= i_digest id)%nat -> i_fits id iv header c ->
  exists p v, snd (decrypt_and_verify md false lengths (fst (arun md false b2 ops2)) tag iv header c) = [ODone; ODone; OBytes p; OBool v] /\
    exists tag', snd (encrypt_and_authenticate md true lengths (fst (arun md true b1 ops1)) (length tag) iv header p) = [ODone; ODone; OBytes c; OBytes tag'] /\
      (v = true <-> tag = tag').
Proof.
  intros M md id b1 b2 A1 A2 ops1 ops2 R1 R2 lengths iv header c tag Hl Biv Bh Bc Hn Hf.
  pose proof (announce_ok id iv header c lengths Hf Hl) as Ha. set (l := if lengths then _ else None) in *.
  assert (Hf2 : i_fits id iv (concat [header]) (concat [c])) by (cbn [concat]; rewrite !app_nil_r; exact Hf).
  destruct (C53_verify M md id b2 A2 ops2 R2 iv l [header] [c] tag Biv (Forall_cons _ Bh (Forall_nil _)) (Forall_cons _ Bc (Forall_nil _)) Hn Hf2 Ha) as (ps & v & E1 & E2 & E3).
  destruct (message_run _ md id b2 A2 false ops2 R2 iv l [header] [c] (AVerify tag) (conj Biv (conj (Forall_cons _ Bh (Forall_nil _)) (Forall_cons _ Bc (Forall_nil _)))) I Hf2 Ha)
      as (qs & o & Q1 & Q2 & _ & _ & Q5 & _).
  destruct qs as [|p [|? ?]]; try discriminate Q2. injection Q2 as Q2. cbn [map app] in *. rewrite Q5 in E2. destruct ps as [|p' [|? ?]]; cbn [map app] in E2; try discriminate E2; [|exfalso; apply (f_equal (@length aout)) in E2; cbn [length] in E2; rewrite app_length in E2; cbn [length] in E2; lia].
  injection E2 as -> ->. exists p', v. split.
  - unfold decrypt_and_verify. rewrite calls_ok; fold l; rewrite Q5; [reflexivity|]. repeat constructor; discriminate.
  - cbn [concat] in *. rewrite !app_nil_r in *.
    assert (Bp : bytes p') by (rewrite E1; apply (crypt_bytes _ _ _ _ A1); [apply Hf|exact Bc]).
    assert (Hf3 : i_fits id iv (concat [header]) (concat [p'])).
    { destruct Hf as (F1 & F2 & F3). cbn [concat]. rewrite !app_nil_r. split; [exact F1|]. split; [exact F2|]. unfold len64 in *. rewrite Q2. exact F3. }
    assert (Ha3 : i_announced id iv l (concat [header]) (concat [p'])).
    { unfold i_announced in *. destruct l as [[h m]|]; [|exact Ha]. cbn [concat] in *. rewrite !app_nil_r in *. unfold len64 in *. rewrite Q2. exact Ha. }
    destruct (C51_pieces M md id b1 A1 true ops1 R1 iv l [header] [p'] (length tag) Biv (Forall_cons _ Bh (Forall_nil _)) (Forall_cons _ Bp (Forall_nil _)) Hn Hf3 Ha3) as (cs & D1 & D2 & D3).
    destruct cs as [|c' [|? ?]]; try discriminate D2. cbn [concat map app] in *. rewrite !app_nil_r in *. rewrite E1, crypt_crypt in D1. subst c'.
    eexists. split.
    + unfold encrypt_and_authenticate. assert (El : (if lengths then Some (len64 header, len64 p') else None) = l) by (unfold l, len64; rewrite Q2; reflexivity).
      rewrite calls_ok; rewrite El, D3; [reflexivity|]. repeat constructor; discriminate.
    + rewrite E3. unfold i_text. destruct (i_on_plain id); cbn [Bool.eqb]; [reflexivity|]. rewrite E1, crypt_crypt. reflexivity.
Qed.
Example C53_sender_example : (length [1; 2; 3] <= i_digest (ccm_ideal toy_e 12))%nat /\ i_fits (ccm_ideal toy_e 12) (repeat 5 12) [1; 2] [4; 5; 6] /\
  last (snd (decrypt_and_verify (ccm_mode toy_e 12) false true toy_ccm [1; 2; 3] (repeat 5 12) [1; 2] [4; 5; 6])) OBadState = OBool false.
Proof. split; [cbn; lia|]. split; [vm_compute; repeat split; discriminate|]. vm_compute. reflexivity. Qed.

(** CCM with no lengths announced, no header and no message: the tag is not refused, and depends on what the object did before. *)
Theorem C53_ccm_unannounced_refuted : exists M (md : mode M) id b iv ops0, aead md id b /\ i_ready id true ops0 /\
  last (snd (arun md true b [AStart iv None; AFinal 12])) OBadState <> last (snd (arun md true b (ops0 ++ [AStart iv None; AFinal 12]))) OBadState.
Proof.
  exists ccm, (ccm_mode toy_e 12), (ccm_ideal toy_e 12), toy_ccm, (repeat 5 12), [AStart (repeat 5 12) (Some (0, 1)); AProcess [1]; AFinal 12].
  split; [apply toy_objects|]. split; [|vm_compute; discriminate]. split; [|vm_compute; reflexivity].
  repeat constructor; try (unfold byte; cbn; lia); try (cbn; lia). 
Qed.

Print Assumptions C50_round_trip. Print Assumptions C50_one_call. Print Assumptions C51_pieces. Print Assumptions C51_gcm_standard. Print Assumptions C51_gcm_standard_12.
Print Assumptions C51_gcm_counter_refuted. Print Assumptions C51_gcm_counter_loop. Print Assumptions C52_histories. Print Assumptions C52_no_iv. Print Assumptions C52_refused_calls.
Print Assumptions C52_header_after_message. Print Assumptions C52_header_after_message_refuted. Print Assumptions C52_eax_restart_refuted. Print Assumptions C52_restart.
Print Assumptions C53_verify. Print Assumptions C53_sender. Print Assumptions C53_ccm_unannounced_refuted.
