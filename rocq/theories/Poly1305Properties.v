(** C17: Poly1305 computes the polynomial of RFC 8439 exactly. *)
From Coq Require Import ZArith List Bool Arith Lia.
From Verif Require Import Base Blocks HashModel Poly1305Model Poly1305Spec Poly1305Proofs.
Import ListNotations.
Local Open Scope Z_scope.

(** An object as constructed: the arrays have their sizes, their contents are arbitrary. *)
Definition raw (s : poly) : Prop :=
  length (po_acc s) = 16%nat /\ bytes (po_acc s) /\
  0 <= q0 (po_n s) < 2 ^ 32 /\ 0 <= q1 (po_n s) < 2 ^ 32 /\ 0 <= q2 (po_n s) < 2 ^ 32 /\ 0 <= q3 (po_n s) < 2 ^ 32.

(** Poly1305TLS: after the first key every answer of every history is the one RFC 8439 gives. *)
Theorem C17_poly1305_tls_history : forall s key ops, raw s -> bytes key -> length key = 32%nat -> Forall mop_okb ops ->
  pt_run s (MSetKey key :: ops) = MODone :: spec_ptrun (key, []) ops.
Proof.
  intros s key ops (Hl & Hb & Hn) Hk Hk2 Ho. cbn [pt_run pt_step]. unfold pt_setkey. rewrite (proj2 (Nat.eqb_eq _ _) Hk2). f_equal.
  apply pt_run_spec with (clamp_words key) (get_quad (skipn 16 key)); auto.
  - apply prep_zero; auto; [apply clamp_words_ok; auto|apply get_quad_ok, bytes_skipn; auto].
  - split; [apply clamp_words_val; auto; lia|].
    rewrite <- getw_16 by (rewrite skipn_length; lia). rewrite firstn_all2; auto. rewrite skipn_length. lia.
Qed.
(** In particular for one message in any number of pieces. *)
Theorem C17_poly1305_tls_of_chunks : forall s key chunks, raw s -> bytes key -> length key = 32%nat -> Forall bytes chunks ->
  pt_run s (MSetKey key :: map MUpdate chunks ++ [MFinal 16]) =
  MODone :: map (fun _ => MODone) chunks ++
    [MOTag (le_bytes 16 ((poly_acc (clamp (le_val (firstn 16 key))) (pieces (concat chunks)) + le_val (skipn 16 key)) mod 2 ^ 128))].
Proof.
  intros s key chunks Hr Hk Hk2 Hc. rewrite C17_poly1305_tls_history; auto.
  2:{ apply Forall_app. split; [|repeat constructor]. apply Forall_forall. intros x Hx. apply in_map_iff in Hx as (c & <- & Hx).
      exact (proj1 (Forall_forall _ _) Hc c Hx). }
  f_equal. clear Hc.
  enough (forall m, spec_ptrun (key, m) (map MUpdate chunks ++ [MFinal 16]) = map (fun _ => MODone) chunks ++
    [MOTag (le_bytes 16 ((poly_acc (clamp (le_val (firstn 16 key))) (pieces (m ++ concat chunks)) + le_val (skipn 16 key)) mod 2 ^ 128))]) by (apply H).
  induction chunks as [|c cs IH]; intros m; cbn [map app spec_ptrun concat].
  - cbn [spec_ptstep]. change (Nat.leb 16 16) with true. cbv iota. unfold poly1305_tls, poly1305_spec. rewrite app_nil_r, firstn_all2; auto; rewrite le_bytes_length; lia.
  - cbn [spec_ptstep]. rewrite IH, app_assoc. reflexivity.
Qed.
(** Poly1305 with a block cipher. *)
Theorem C17_poly1305_history : forall E s key iv ops,
  (forall k b, length b = 16%nat -> length (E k b) = 16%nat /\ bytes (E k b)) ->
  raw s -> bytes key -> length key = 32%nat -> length iv = 16%nat -> Forall pop_okb ops ->
  po_run E s (PSetKey key iv :: ops) = MODone :: spec_porun E (key, E (firstn 16 key) iv, []) ops.
Proof.
  intros E s key iv ops HE (Hl & Hb & N0 & N1 & N2 & N3) Hk Hk2 Hiv Ho.
  cbn [po_run po_step]. unfold po_setkey. rewrite (proj2 (Nat.eqb_eq _ _) Hk2), Hiv. change (Nat.eqb 16 0) with false. cbv iota. f_equal.
  destruct (HE (firstn 16 key) iv Hiv) as [L B].
  apply po_run_spec with (clamp_words (skipn 16 key)) (get_quad (E (firstn 16 key) iv)); auto.
  - apply prep_zero; auto; [apply clamp_words_ok, bytes_skipn; auto|apply get_quad_ok; auto].
  - split.
    + rewrite clamp_words_val by (try apply bytes_skipn; auto; rewrite skipn_length; lia). rewrite firstn_all2; auto. rewrite skipn_length; lia.
    + rewrite <- getw_16 by lia. rewrite firstn_all2; auto. lia.
Qed.

(** RFC 8439 section 2.5.2, fed in pieces, and a history around it. *)
Example C17_rfc_example :
  let key := [0x85;0xd6;0xbe;0x78;0x57;0x55;0x6d;0x33;0x7f;0x44;0x52;0xfe;0x42;0xd5;0x06;0xa8;
              0x01;0x03;0x80;0x8a;0xfb;0x0d;0xb2;0xfd;0x4a;0xbf;0xf6;0xaf;0x41;0x49;0xf5;0x1b] in
  let msg := [0x43;0x72;0x79;0x70;0x74;0x6f;0x67;0x72;0x61;0x70;0x68;0x69;0x63;0x20;0x46;0x6f;0x72;0x75;0x6d;0x20;
              0x52;0x65;0x73;0x65;0x61;0x72;0x63;0x68;0x20;0x47;0x72;0x6f;0x75;0x70] in
  let tag := [0xa8;0x06;0x1d;0xc1;0x30;0x51;0x36;0xc6;0xc2;0x2b;0x8b;0xaf;0x0c;0x01;0x27;0xa9] in
  let s := mkP (fun b => b) (mkL 9 9 9 9 9) (mkQ 1 2 3 4) (mkQ 5 6 7 8) (repeat 77 16) 5 in
  raw s /\ poly1305_tls key msg = tag /\
  pt_run s [MSetKey key; MUpdate (firstn 5 msg); MUpdate (skipn 5 msg); MFinal 16; MUpdate msg; MFinal 17; MSetKey [1]; MFinal 8; MFinal 16] =
  [MODone; MODone; MODone; MOTag tag; MODone; MOInvalid; MOInvalid; MOTag (firstn 8 tag); MOTag (skipn 16 key)].
Proof. unfold raw. split; [|vm_compute; auto]. repeat split; try (vm_compute; congruence). apply Forall_repeat. vm_compute. split; congruence. Qed.
(** The carry chains at their limits: RFC 8439 appendix A.3, test vectors 7 to 9. *)
Example C17_limits :
  poly1305_tls ([1] ++ repeat 0 31) (repeat 255 16 ++ [240] ++ repeat 255 15 ++ [17] ++ repeat 0 15) = [5] ++ repeat 0 15 /\
  (let s := mkP (fun b => b) (mkL 9 9 9 9 9) (mkQ 1 2 3 4) (mkQ 5 6 7 8) (repeat 77 16) 5 in
   pt_run s [MSetKey ([1] ++ repeat 0 31); MUpdate (repeat 255 16 ++ [240] ++ repeat 255 15 ++ [17] ++ repeat 0 15); MFinal 16] =
     [MODone; MODone; MOTag ([5] ++ repeat 0 15)] /\
   pt_run s [MSetKey ([2] ++ repeat 0 31); MUpdate ([253] ++ repeat 255 15); MFinal 16] =
     [MODone; MODone; MOTag ([250] ++ repeat 255 15)]).
Proof. vm_compute. auto. Qed.
(** The last of the example shows what Resynchronize does: a new nonce, the message kept. *)
Example C17_resync_example :
  let E := fun k b => map (fun x => (3 * x + 1) mod 256) b in
  let s := mkP (fun b => b) (mkL 9 9 9 9 9) (mkQ 1 2 3 4) (mkQ 5 6 7 8) (repeat 77 16) 5 in
  let key := repeat 7 32 in
  po_run E s [PSetKey key (repeat 1 16); PUpdate [1;2;3]; PResync (repeat 2 16); PUpdate [4]; PFinal 16] =
  [MODone; MODone; MODone; MODone; MOTag (poly1305_spec (repeat 7 16) (repeat 7 16) [1;2;3;4])].
Proof. vm_compute. auto. Qed.

Print Assumptions C17_poly1305_tls_history.
Print Assumptions C17_poly1305_tls_of_chunks.
Print Assumptions C17_poly1305_history.
