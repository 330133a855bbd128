(** C31-C34, C68, C69: the ASN.1 codec. *)
From Coq Require Import ZArith List Bool Arith Lia.
From Verif Require Import Base AsnModel AsnSpec AsnProofs AsnKeyProofs.
Import ListNotations.
Local Open Scope Z_scope.

(* ------------------------------------------------------------------------- C31 *)

(** The encoding is the DER one, and no BER encoding of the length is shorter. *)
Theorem C31_encoding_is_der : forall l, 0 <= l < 2 ^ 64 -> der_len l (der_length l) /\ bytes (der_length l).
Proof. exact der_length_spec. Qed.

Theorem C31_encoding_is_shortest : forall l e, 0 <= l < 2 ^ 64 -> ber_len l e -> len (der_length l) <= len e.
Proof.
  intros l e H B. destruct (der_length_spec l H) as (D & _). unfold der_len in D. destruct (Z.ltb_spec l 128).
  - rewrite D. change (len [l]) with 1. destruct B as [(-> & _)|(ds & -> & _)]; rewrite ?len_cons, ?len_nil; pose proof len_nonneg; [lia|].
    specialize (H1 ds). lia.
  - destruct D as (ds & -> & Bd & N & V). destruct B as [(-> & R)|(ds' & -> & _ & Bd' & V')]; [lia|]. rewrite !len_cons.
    destruct ds as [|x r]; [change (be_val []) with 0 in V; lia|]. cbn in N. pose proof (be_val_lead x r Bd N) as Lo. rewrite <- V, V' in Lo.
    pose proof (be_val_bounds ds' Bd') as Up. rewrite len_cons. unfold len.
    destruct (Z.lt_ge_cases (Z.of_nat (length r)) (Z.of_nat (length ds'))); [lia|].
    assert (256 ^ Z.of_nat (length ds') <= 256 ^ Z.of_nat (length r)) by (apply Z.pow_le_mono_r; lia). lia.
Qed.

(** Decoding returns the length and consumes exactly its bytes, whatever follows and whatever objects are open. *)
Theorem C31_round_trip : forall l s rest, src_ok s -> 0 <= l < 2 ^ 64 -> visible s = der_length l ++ rest ->
  ber_length_lw s = LOk true l (s_skip (len (der_length l)) s) /\ visible (s_skip (len (der_length l)) s) = rest.
Proof.
  intros l s rest H L V. split; [|apply visible_skip_app; auto]. apply (length_reads l _ s rest); auto; [|lia].
  apply der_len_ber; auto. apply der_length_spec; auto.
Qed.

Theorem C31_round_trip_size_t : forall sz l s rest, src_ok s -> 0 <= sz <= 64 -> 0 <= l < 2 ^ sz -> visible s = der_length l ++ rest ->
  ber_length sz s = Some (true, l, s_skip (len (der_length l)) s) /\ visible (s_skip (len (der_length l)) s) = rest.
Proof.
  intros sz l s rest H Hs L V. assert (2 ^ sz <= 2 ^ 64) by (apply Z.pow_le_mono_r; lia).
  destruct (C31_round_trip l s rest H ltac:(lia) V) as (E & W). split; auto. unfold ber_length. rewrite E, size_mod; auto; lia.
Qed.

(** It accepts exactly the definite BER lengths below 2^64, minimal or not. *)
Theorem C31_accepts_exactly_ber : forall s l s', src_ok s ->
  (ber_length_lw s = LOk true l s' <->
   exists e rest, ber_len l e /\ l < 2 ^ 64 /\ visible s = e ++ rest /\ s' = s_skip (len e) s).
Proof.
  intros s l s' H. split.
  - intros E. destruct (length_sound l s s' H E) as (L & e & rest & A & B & C). exists e, rest. auto.
  - intros (e & rest & A & B & C & ->). apply (length_reads l e s rest); auto.
Qed.

Definition plain (d : list Z) : src := mkSrc d [].
Lemma plain_ok : forall d, bytes d -> src_ok (plain d) /\ visible (plain d) = d.
Proof.
  intros d B. split; [split; auto; constructor|]. unfold visible, plain, s_count. cbn [s_in s_frames fold_right]. rewrite Nat2Z.id. apply firstn_all.
Qed.

Example C31_example : der_length 300 = [130; 1; 44] /\ ber_length_lw (plain [130; 1; 44; 7]) = LOk true 300 (plain [7]) /\
  ber_length_lw (plain [131; 0; 1; 44; 7]) = LOk true 300 (plain [7]) /\ src_ok (plain [130; 1; 44; 7]).
Proof. repeat split; try reflexivity; repeat constructor; unfold byte; lia. Qed.

(* ------------------------------------------------------------------------- C32 *)

Theorem C32_null : forall sz, 0 <= sz <= 64 -> reads_back (ber_null sz) tt der_null.
Proof. exact null_reads. Qed.

Theorem C32_octet_string : forall sz str, 0 <= sz <= 64 -> len str < 2 ^ sz ->
  der_object OCTET_STRING str (der_octet_string str) /\ reads_back (ber_octet_string sz) str (der_octet_string str).
Proof.
  intros sz str Hs L. assert (2 ^ sz <= 2 ^ 64) by (apply Z.pow_le_mono_r; lia). unfold der_octet_string, ber_octet_string.
  destruct (der_string_is OCTET_STRING str) as (D & le & B & E); [lia|]. split; auto. rewrite E. apply string_reads; auto.
Qed.

Theorem C32_text_string : forall sz tag str, 0 <= sz <= 64 -> len str < 2 ^ sz ->
  der_object tag str (der_text_string tag str) /\ reads_back (ber_text_string sz tag) str (der_text_string tag str).
Proof.
  intros sz tag str Hs L. assert (2 ^ sz <= 2 ^ 64) by (apply Z.pow_le_mono_r; lia). unfold der_text_string, ber_text_string.
  destruct (der_string_is tag str) as (D & le & B & E); [lia|]. split; auto. rewrite E. apply string_reads; auto.
Qed.

Theorem C32_date : forall sz tag str, 0 <= sz <= 64 -> len str < 2 ^ sz ->
  der_object tag str (der_date tag str) /\ reads_back (ber_date sz tag) str (der_date tag str).
Proof. exact C32_text_string. Qed.

Theorem C32_bit_string : forall sz str unused, 0 <= sz <= 64 -> len (unused :: str) < 2 ^ sz -> 0 <= unused <= 7 ->
  der_object BIT_STRING (unused :: str) (der_bit_string str unused) /\ reads_back (ber_bit_string sz) (str, unused) (der_bit_string str unused).
Proof.
  intros sz str unused Hs L U. assert (2 ^ sz <= 2 ^ 64) by (apply Z.pow_le_mono_r; lia).
  assert (E : der_bit_string str unused = der_string BIT_STRING (unused :: str)).
  { unfold der_bit_string, der_string. rewrite Z.mod_small by lia. repeat f_equal. cbn [length]. lia. }
  rewrite E. destruct (der_string_is BIT_STRING (unused :: str)) as (D & le & B & E2); [lia|]. split; auto. rewrite E2. apply bit_string_reads; auto.
Qed.

(** INTEGER and ENUMERATED, for a word type of [n] bytes and any range that holds the value *)
Theorem C32_unsigned : forall sz n tag w minv maxv, 16 <= sz <= 64 -> (0 < n <= 8)%nat -> tag = INTEGER \/ tag = ENUMERATED ->
  0 <= w < 256 ^ Z.of_nat n -> minv <= w <= maxv ->
  (exists c, der_unsigned_contents w c /\ der_object tag c (der_unsigned n tag w)) /\
  reads_back (ber_unsigned sz n tag minv maxv) w (der_unsigned n tag w).
Proof.
  intros sz n tag w minv maxv Hs Hn T W R.
  destruct (der_unsigned_is n tag w) as (c & Hc & Lc & E); auto; try lia. { destruct T; subst; discriminate. }
  assert (2 ^ 16 <= 2 ^ sz) by (apply Z.pow_le_mono_r; lia). assert (2 ^ sz <= 2 ^ 64) by (apply Z.pow_le_mono_r; lia).
  change (2 ^ 16) with 65536 in *. destruct (contents_len w c Hc) as (Bc & Nc & Vc).
  destruct (der_string_is tag c) as (D & le & B & E2); [lia|]. split. { exists c. rewrite E. auto. }
  rewrite E, E2, <- Vc. apply unsigned_reads; auto; try lia. intros ->. destruct T; discriminate.
Qed.

(** BOOLEAN: a truth value; true is encoded and read back as 255. *)
Theorem C32_boolean : forall sz n (b : bool) w maxv, 16 <= sz <= 64 -> (0 < n)%nat -> 255 <= maxv -> b = negb (w =? 0) ->
  let r := if b then 255 else 0 in
  der_object BOOLEAN [r] (der_unsigned n BOOLEAN w) /\ reads_back (ber_unsigned sz n BOOLEAN 0 maxv) r (der_unsigned n BOOLEAN w).
Proof.
  intros sz n b w maxv Hs Hn Hm Hb r. assert (2 ^ 16 <= 2 ^ sz) by (apply Z.pow_le_mono_r; lia). change (2 ^ 16) with 65536 in *.
  assert (E : der_unsigned n BOOLEAN w = BOOLEAN :: [1] ++ [r]). { unfold der_unsigned, r. rewrite Hb. destruct (w =? 0); reflexivity. }
  assert (R : 0 <= r <= 255) by (unfold r; destruct b; lia). rewrite E. split. { exists [1]. split; auto. reflexivity. }
  assert (V : be_val [r] = r) by (unfold be_val; cbn [fold_left]; lia). rewrite <- V at 1. apply unsigned_reads; auto; try lia.
  - repeat constructor; unfold byte; lia.
  - left. split; auto. change (len [r]) with 1. lia.
  - change (len [r]) with 1. lia.
  - intros _. discriminate.
  - rewrite V. assert (256 ^ 1 <= 256 ^ Z.of_nat n) by (apply Z.pow_le_mono_r; lia). change (256 ^ 1) with 256 in *. lia.
Qed.

(** Nesting: whatever decoder reads back the contents can be used between the opening and the end of an object;
    an object with unread contents is refused. *)
Theorem C32_nested : forall (A : Type) tag (f : src -> option (A * src)) v c, len c < 2 ^ 64 -> reads_in f v c ->
  der_object tag c (der_wrap tag c) /\
  reads_back (fun s => bind1 (ber_open tag s) (fun s => bind (f s) (fun v s => bind1 (ber_close s) (fun s => Some (v, s))))) v (der_wrap tag c).
Proof.
  intros A tag f v c L R. split. { apply der_string_is; auto. } destruct (len_wrap tag c L) as (le & B & E). rewrite E. apply (within_reads_in tag f v c le); auto.
Qed.

Theorem C32_unread_contents_refused : forall (A : Type) tag (f : src -> option (A * src)) v c d s rest, d <> [] -> len (c ++ d) < 2 ^ 64 -> reads_back f v c ->
  src_ok s -> visible s = der_wrap tag (c ++ d) ++ rest ->
  bind1 (ber_open tag s) (fun s => bind (f s) (fun v s => bind1 (ber_close s) (fun s => Some (v, s)))) = None.
Proof.
  intros A tag f v c d s rest D L R H V. destruct (len_wrap tag (c ++ d) L) as (le & B & E). rewrite E in V.
  exact (within_unread tag f v c d le R D B L s rest H V).
Qed.

(** Documents: any nesting of these objects, written by the encoders and read by the decoders in the same order. *)
Inductive item := INull | IOctets (str : list Z) | IText (tag : Z) (str : list Z) | IBits (str : list Z) (unused : Z) | IInt (w : Z) | ISeq (l : list item).
Fixpoint item_enc (t : item) : list Z :=
  match t with
  | INull => der_null
  | IOctets s => der_octet_string s
  | IText tag s => der_text_string tag s
  | IBits s u => der_bit_string s u
  | IInt w => der_unsigned 8 INTEGER w
  | ISeq l => der_wrap SEQUENCE (concat (map item_enc l))
  end.
(** reads an object of the shape of [t] *)
Fixpoint item_dec (sz : Z) (t : item) (s : src) : option (item * src) :=
  match t with
  | INull => bind (ber_null sz s) (fun _ s => Some (INull, s))
  | IOctets _ => bind (ber_octet_string sz s) (fun v s => Some (IOctets v, s))
  | IText tag _ => bind (ber_text_string sz tag s) (fun v s => Some (IText tag v, s))
  | IBits _ _ => bind (ber_bit_string sz s) (fun v s => Some (IBits (fst v) (snd v), s))
  | IInt _ => bind (ber_unsigned sz 8 INTEGER 0 (2 ^ 64 - 1) s) (fun w s => Some (IInt w, s))
  | ISeq l =>
    bind1 (ber_open SEQUENCE s) (fun s =>
    bind ((fix all l s := match l with [] => Some ([], s) | t :: l => bind (item_dec sz t s) (fun v s => bind (all l s) (fun vs s => Some (v :: vs, s))) end) l s) (fun vs s =>
    bind1 (ber_close s) (fun s => Some (ISeq vs, s))))
  end.
Fixpoint item_ok (t : item) : Prop :=
  match t with
  | IBits _ u => 0 <= u <= 7
  | IInt w => 0 <= w < 2 ^ 64
  | ISeq l => (fix all l := match l with [] => True | t :: l => item_ok t /\ all l end) l
  | _ => True
  end.

Lemma item_ind2 : forall (P : item -> Prop), P INull -> (forall s, P (IOctets s)) -> (forall t s, P (IText t s)) -> (forall s u, P (IBits s u)) -> (forall w, P (IInt w)) ->
  (forall l, Forall P l -> P (ISeq l)) -> forall t, P t.
Proof.
  intros P H1 H2 H3 H4 H5 H6. fix F 1. intros [| | | | |l]; [exact H1|apply H2|apply H3|apply H4|apply H5|]. apply H6. induction l; constructor; auto.
Qed.

Lemma bind_ret_reads : forall {A B} (f : src -> option (A * src)) (g : A -> B) v e, reads_back f v e -> reads_back (fun s => bind (f s) (fun v s => Some (g v, s))) (g v) e.
Proof. intros A B f g v e R s rest H V. destruct (R s rest H V) as (X & W). rewrite X. auto. Qed.

Theorem C32_documents : forall sz t, 16 <= sz <= 64 -> item_ok t -> len (item_enc t) < 2 ^ sz -> reads_back (item_dec sz t) t (item_enc t).
Proof.
  intros sz t Hs. assert (P64 : 2 ^ sz <= 2 ^ 64) by (apply Z.pow_le_mono_r; lia). induction t as [| | | | |l IH] using item_ind2; intros Ok L.
  - apply (bind_ret_reads _ (fun _ => INull) tt). apply C32_null. lia.
  - apply (bind_ret_reads _ IOctets s). apply C32_octet_string; [lia|]. pose proof (len_wrap_ge OCTET_STRING s). unfold item_enc, der_octet_string in L. rewrite <- wrap_string in L. lia.
  - apply (bind_ret_reads _ (IText t) s). apply C32_text_string; [lia|]. pose proof (len_wrap_ge t s). unfold item_enc, der_text_string in L. rewrite <- wrap_string in L. lia.
  - apply (bind_ret_reads _ (fun v => IBits (fst v) (snd v)) (s, u)). apply C32_bit_string; [lia| |exact Ok].
    cbn [item_enc] in L. unfold der_bit_string in L. rewrite len_cons, len_app, len_cons in L. rewrite len_cons. pose proof (len_nonneg (der_length (Z.of_nat (length s) + 1))). lia.
  - apply (bind_ret_reads _ IInt w). cbn [item_enc item_ok] in *. destruct (C32_unsigned sz 8 INTEGER w 0 (2 ^ 64 - 1)) as (_ & R); auto; try lia.
  - cbn [item_enc] in *. pose proof (len_wrap_ge SEQUENCE (concat (map item_enc l))) as G. 
    set (all := fix all l s := match l with [] => Some ([], s) | t :: l => bind (item_dec sz t s) (fun v s => bind (all l s) (fun vs s => Some (v :: vs, s))) end).
    assert (R : forall l, Forall (fun t => item_ok t -> len (item_enc t) < 2 ^ sz -> reads_back (item_dec sz t) t (item_enc t)) l ->
      (fix all l := match l with [] => True | t :: l => item_ok t /\ all l end) l -> len (concat (map item_enc l)) < 2 ^ sz -> reads_in (all l) l (concat (map item_enc l))).
    { clear. induction l as [|t l IHl]; intros F Ok L; [apply reads_in_ret|]. inversion F as [|? ? F1 F2]; subst. destruct Ok as (O1 & O2). cbn [map concat] in *.
      rewrite len_app in L. pose proof (len_nonneg (item_enc t)). pose proof (len_nonneg (concat (map item_enc l))).
      apply (reads_in_bind (item_dec sz t) (fun v s => bind (all l s) (fun vs s => Some (v :: vs, s))) t); [apply F1; auto; lia|].
      intros s H1 H2 H3. rewrite (IHl F2 O2 ltac:(lia) s H1 H2 H3). reflexivity. }
    destruct (len_wrap SEQUENCE (concat (map item_enc l))) as (le & B & E); [lia|]. rewrite E.
    pose proof (within_reads_in SEQUENCE (all l) l _ le (R l IH Ok ltac:(lia)) B ltac:(lia)) as X.
    intros s rest H V. destruct (X s rest H V) as (Y & W). split; auto. cbn [item_dec]. fold all. unfold within in Y.
    destruct (ber_open SEQUENCE s) as [s1|]; [|discriminate]. cbn [bind1] in *. destruct (all l s1) as [(vs & s2)|]; [|discriminate]. cbn [bind] in *.
    destruct (ber_close s2) as [s3|]; [|discriminate]. cbn [bind1] in *. congruence.
Qed.

Example C32_example :
  let t := ISeq [IInt 128; ISeq [INull; IOctets [1; 2; 3]]; IBits [255] 4] in
  item_ok t /\ item_enc t = [48; 17; 2; 2; 0; 128; 48; 7; 5; 0; 4; 3; 1; 2; 3; 3; 2; 4; 255] /\
  item_dec 32 t (plain (item_enc t ++ [9])) = Some (t, plain [9]).
Proof. cbv zeta. split; [cbn; lia|]. split; vm_compute; reflexivity. Qed.

(* ------------------------------------------------------------------------- C33 *)

(** The full statement is: every [valid_oid] is encoded as X.690 says and read back.  Proved for second arcs below 40,
    which is what the first two arcs of the identifiers in use look like; refuted beyond. *)
Theorem C33_round_trip_partial : forall sz o, 16 <= sz <= 64 -> valid_oid o -> nth 1 o 0 < 40 -> len (oid_encode o) < 2 ^ sz ->
  (exists first subs, subidentifier (nth 0 o 0 * 40 + nth 1 o 0) first /\ Forall2 subidentifier (skipn 2 o) subs /\
     der_object OBJECT_IDENTIFIER (concat (first :: subs)) (oid_encode o)) /\
  reads_back (oid_decode sz) o (oid_encode o).
Proof.
  intros sz o Hs V N L. assert (P64 : 2 ^ sz <= 2 ^ 64) by (apply Z.pow_le_mono_r; lia).
  assert (P : plain_oid o). { destruct V as (a & b & r & -> & A & B & _ & F). cbn in N. inversion F as [|? ? Fa Fb]. inversion Fb as [|? ? Fc Fd]. exists a, b, r. auto. }
  rewrite oid_encode_is in * by auto. pose proof (len_wrap_ge OBJECT_IDENTIFIER (oid_body o)) as G. rewrite wrap_string in G.
  destruct (der_string_is OBJECT_IDENTIFIER (oid_body o)) as (D & le & B & E); [lia|]. split.
  - exists [nth 0 o 0 * 40 + nth 1 o 0], (map oid_encode_value (skipn 2 o)). split; [|split].
    + destruct P as (a & b & r & -> & A & Bb & F). cbn [nth]. exists [], (a * 40 + b). cbn [app]. split; auto. split; auto. split; [lia|]. split; [|cbn [hd]; lia].
      unfold base128. cbn [fold_left]. rewrite Z.mod_small by lia. lia.
    + destruct P as (a & b & r & -> & A & Bb & F). cbn [skipn]. clear -F. induction F; cbn [map]; constructor; auto. apply oid_encode_value_spec; auto.
    + exact D.
  - rewrite E. apply oid_reads; auto; lia.
Qed.

(** Beyond: 2.40 is read back as 3.0, and the first octet of 2.999 is truncated, so that it is read back as 1.15. *)
Theorem C33_round_trip_refuted :
  valid_oid [2; 40] /\ oid_decode 64 (plain (oid_encode [2; 40])) = Some ([3; 0], plain []) /\
  valid_oid [2; 999; 3] /\ oid_decode 64 (plain (oid_encode [2; 999; 3])) = Some ([1; 15; 3], plain []).
Proof.
  assert (V : forall b r, 0 <= b < 2 ^ 32 -> Forall (fun v => 0 <= v < 2 ^ 32) r -> valid_oid (2 :: b :: r)).
  { intros b r Hb Hr. exists 2, b, r. split; auto. split; [lia|]. split; [lia|]. split; [lia|]. constructor; [lia|]. constructor; auto. }
  split; [apply V; [lia|constructor]|]. split; [vm_compute; reflexivity|]. split; [apply V; [lia|repeat constructor; lia]|]. vm_compute. reflexivity.
Qed.

Example C33_example : valid_oid [1; 2; 840; 113549] /\ oid_encode [1; 2; 840; 113549] = [6; 6; 42; 134; 72; 134; 247; 13] /\
  oid_decode 64 (plain [6; 6; 42; 134; 72; 134; 247; 13; 5]) = Some ([1; 2; 840; 113549], plain [5]).
Proof.
  split; [|split; vm_compute; reflexivity]. exists 1, 2, [840; 113549]. split; auto. split; [lia|]. split; [lia|]. split; [lia|]. repeat constructor; lia.
Qed.

(* ------------------------------------------------------------------------- C34 *)

Theorem C34_strings : forall sz tag str, 0 <= sz <= 64 -> len str < 2 ^ sz ->
  refuses_prefixes (ber_octet_string sz) (der_octet_string str) /\ refuses_prefixes (ber_text_string sz tag) (der_text_string tag str) /\
  refuses_prefixes (ber_date sz tag) (der_date tag str).
Proof.
  intros sz tag str Hs L. assert (2 ^ sz <= 2 ^ 64) by (apply Z.pow_le_mono_r; lia).
  assert (G : forall tag, refuses_prefixes (ber_string sz tag) (der_string tag str)).
  { intros t. destruct (der_string_is t str) as (_ & le & B & E); [lia|]. rewrite E. apply string_prefix; auto. }
  split; [apply G|split; apply G].
Qed.

Theorem C34_null : forall sz, 0 <= sz <= 64 -> refuses_prefixes (ber_null sz) der_null.
Proof. exact null_prefix. Qed.

Theorem C34_bit_string : forall sz str unused, 0 <= sz <= 64 -> len (unused :: str) < 2 ^ sz -> 0 <= unused < 256 ->
  refuses_prefixes (ber_bit_string sz) (der_bit_string str unused).
Proof.
  intros sz str unused Hs L U. assert (2 ^ sz <= 2 ^ 64) by (apply Z.pow_le_mono_r; lia).
  assert (E : der_bit_string str unused = der_string BIT_STRING (unused :: str)).
  { unfold der_bit_string, der_string. rewrite Z.mod_small by lia. repeat f_equal. cbn [length]. lia. }
  rewrite E. destruct (der_string_is BIT_STRING (unused :: str)) as (D & le & B & E2); [lia|]. rewrite E2. apply bit_string_prefix; auto.
Qed.

Theorem C34_unsigned : forall sz n tag w minv maxv, 16 <= sz <= 64 -> (0 < n <= 8)%nat -> 0 <= w < 256 ^ Z.of_nat n ->
  refuses_prefixes (ber_unsigned sz n tag minv maxv) (der_unsigned n tag w).
Proof.
  intros sz n tag w minv maxv Hs Hn W. assert (2 ^ 16 <= 2 ^ sz) by (apply Z.pow_le_mono_r; lia). change (2 ^ 16) with 65536 in *.
  assert (2 ^ sz <= 2 ^ 64) by (apply Z.pow_le_mono_r; lia).
  assert (X : exists c, len c < 65536 /\ der_unsigned n tag w = der_string tag c).
  { destruct (Z.eq_dec tag BOOLEAN) as [->|N].
    - exists [if w =? 0 then 0 else 255]. split; [rewrite len_cons, len_nil; lia|]. reflexivity.
    - destruct (der_unsigned_is n tag w) as (c & Hc & Lc & E); auto; try lia. exists c. split; auto. lia. }
  destruct X as (c & Lc & ->). destruct (der_string_is tag c) as (_ & le & B & E); [lia|]. rewrite E. apply unsigned_prefix; auto; lia.
Qed.

Theorem C34_oid : forall sz o, 0 <= sz <= 64 -> len (oid_encode o) < 2 ^ sz -> refuses_prefixes (oid_decode sz) (oid_encode o).
Proof.
  intros sz o Hs L. assert (2 ^ sz <= 2 ^ 64) by (apply Z.pow_le_mono_r; lia). unfold oid_encode in *. cbv zeta in *.
  match type of L with len (_ :: _ ++ ?b) < _ => set (body := b) in * end.
  pose proof (len_wrap_ge OBJECT_IDENTIFIER body) as G. unfold der_wrap in G.
  destruct (der_string_is OBJECT_IDENTIFIER body) as (_ & le & B & E); [lia|]. unfold der_string in E. rewrite E. apply oid_prefix; auto; lia.
Qed.

Theorem C34_length : forall l s missing, src_ok s -> 0 <= l < 2 ^ 64 -> missing <> [] -> visible s ++ missing = der_length l ->
  forall d k s', ber_length_lw s <> LOk d k s'.
Proof.
  intros l s missing H L M V d k s'. assert (B : ber_len l (der_length l)) by (apply der_len_ber; auto; apply der_length_spec; auto).
  destruct (length_prefix l _ s missing H B M V) as [E|E]; rewrite E; discriminate.
Qed.

(** A constructed object that is cut short is refused whatever reads its contents. *)
Theorem C34_nested : forall (A : Type) tag (f : src -> option (A * src)) c, len c < 2 ^ 64 -> reader f ->
  refuses_prefixes (fun s => bind1 (ber_open tag s) (fun s => bind (f s) (fun v s => bind1 (ber_close s) (fun s => Some (v, s))))) (der_wrap tag c).
Proof. intros A tag f c L R. destruct (len_wrap tag c L) as (le & B & E). rewrite E. apply (within_prefix tag f c le); auto. Qed.

(** More generally no decoder returns anything that is not there: what it accepts is an object, present in full. *)
Theorem C34_strings_present : forall sz tag s str s', src_ok s -> ber_string sz tag s = Some (str, s') ->
  exists le rest, ber_len (len str) le /\ visible s = (tag :: le ++ str) ++ rest /\ s' = s_skip (len (tag :: le ++ str)) s.
Proof. exact string_sound. Qed.

Theorem C34_unsigned_present : forall sz n tag minv maxv s w s', src_ok s -> ber_unsigned sz n tag minv maxv s = Some (w, s') ->
  exists le c rest, ber_len (len c) le /\ visible s = (tag :: le ++ c) ++ rest /\ s' = s_skip (len (tag :: le ++ c)) s /\
    w = be_val c /\ minv <= w <= maxv.
Proof.
  intros sz n tag minv maxv s w s' H E. destruct (unsigned_sound sz n tag minv maxv s w s' H E) as (le & c & rest & A & B & C & D & _ & F & _).
  exists le, c, rest. auto.
Qed.

Theorem C34_oid_present : forall sz s o s', src_ok s -> oid_decode sz s = Some (o, s') ->
  exists le body rest, ber_len (len body) le /\ visible s = (OBJECT_IDENTIFIER :: le ++ body) ++ rest /\ s' = s_skip (len (OBJECT_IDENTIFIER :: le ++ body)) s.
Proof. exact oid_sound. Qed.

Example C34_example :
  ber_octet_string 64 (plain [4; 3; 1; 2]) = None /\ visible (plain [4; 3; 1; 2]) ++ [3] = der_octet_string [1; 2; 3] /\
  (* the input goes on, but the object that holds the string ends *)
  ber_octet_string 64 (mkSrc [4; 3; 1; 2; 3; 9] [Some 4]) = None /\ visible (mkSrc [4; 3; 1; 2; 3; 9] [Some 4]) ++ [3] = der_octet_string [1; 2; 3] /\
  oid_decode 64 (plain [6; 3; 42; 134]) = None.
Proof. repeat split; vm_compute; reflexivity. Qed.

(* ------------------------------------------------------------------------- C68 *)

Section C68.
  Context {P K : Type}.
  Variables (sz : Z) (alg : list Z) (params : codec P) (key_enc : K -> list Z) (key_dec : bool -> Z -> src -> option (K * src)).
  (* parameters that are not encoded at all are not seen by the decoder *)
  Let seen (p : P) : option P := match c_enc params p with [] => None | _ => Some p end.
  Let present (p : P) : bool := match c_enc params p with [] => false | _ => true end.

  (** Subject public key info: an algorithm, its parameters if it has any, and a key.  If the derived class reads
      back the parameters and the key it writes, the container does. *)
  Theorem C68_x509_round_trip : forall p k,
    16 <= sz <= 64 -> valid_oid alg -> nth 1 alg 0 < 40 -> len (x509_enc alg params key_enc p k) < 2 ^ sz ->
    (present p = true -> reads_in (c_dec params) p (c_enc params p)) ->
    reads_in (key_dec (present p) (len (key_enc k))) k (key_enc k) ->
    reads_back (x509_dec sz alg params key_dec) (seen p, k) (x509_enc alg params key_enc p k).
  Proof.
    intros p k Hs V N L Hp Hk.
    assert (Po : plain_oid alg). { destruct V as (a & b & r & -> & A & B & _ & F). cbn in N. inversion F as [|? ? Fa Fb]. inversion Fb as [|? ? Fc Fd]. exists a, b, r. auto. }
    apply x509_reads; auto; [lia| |].
    - unfold params_ok. intros X. apply Hp. unfold present. destruct (c_enc params p); congruence.
    - unfold AsnKeyProofs.seen, AsnKeyProofs.present. unfold present in Hk. destruct (c_enc params p); exact Hk.
  Qed.

  (** Private key info: the same, with optional attributes. *)
  Theorem C68_pkcs8_round_trip : forall p k a,
    16 <= sz <= 64 -> valid_oid alg -> nth 1 alg 0 < 40 -> len (pkcs8_enc alg params key_enc p k a) < 2 ^ sz ->
    (present p = true -> reads_in (c_dec params) p (c_enc params p)) -> attributes_ok a ->
    reads_in (key_dec (present p) (len (key_enc k) + len a)) k (key_enc k) ->
    reads_back (pkcs8_dec sz alg params key_dec) (seen p, k, a) (pkcs8_enc alg params key_enc p k a).
  Proof.
    intros p k a Hs V N L Hp Ha Hk.
    assert (Po : plain_oid alg). { destruct V as (x & b & r & -> & A & B & _ & F). cbn in N. inversion F as [|? ? Fa Fb]. inversion Fb as [|? ? Fc Fd]. exists x, b, r. auto. }
    apply pkcs8_reads; auto; [lia| |].
    - unfold params_ok. intros X. apply Hp. unfold present. destruct (c_enc params p); congruence.
    - unfold AsnKeyProofs.seen, AsnKeyProofs.present. unfold present in Hk. destruct (c_enc params p); exact Hk.
  Qed.

  (** Cut short, both are refused, whatever the derived class makes of what it is given. *)
  Theorem C68_truncated_refused : forall p k a, reader (c_dec params) -> (forall pr n, reader (key_dec pr n)) ->
    len (x509_enc alg params key_enc p k) < 2 ^ 64 -> len (pkcs8_enc alg params key_enc p k a) < 2 ^ 64 ->
    refuses_prefixes (x509_dec sz alg params key_dec) (x509_enc alg params key_enc p k) /\
    refuses_prefixes (pkcs8_dec sz alg params key_dec) (pkcs8_enc alg params key_enc p k a).
  Proof. intros. split; [apply x509_prefix|apply pkcs8_prefix]; auto. Qed.

  (** A key of another algorithm is refused. *)
  Theorem C68_other_algorithm_refused : forall alg' (params' : codec P) p k a s rest,
    16 <= sz <= 64 -> valid_oid alg' -> nth 1 alg' 0 < 40 -> alg' <> alg -> src_ok s ->
    (len (x509_enc alg' params' key_enc p k) < 2 ^ sz -> visible s = x509_enc alg' params' key_enc p k ++ rest -> x509_dec sz alg params key_dec s = None) /\
    (len (pkcs8_enc alg' params' key_enc p k a) < 2 ^ sz -> visible s = pkcs8_enc alg' params' key_enc p k a ++ rest -> pkcs8_dec sz alg params key_dec s = None).
  Proof.
    intros alg' params' p k a s rest Hs V N D H.
    assert (Po : plain_oid alg'). { destruct V as (x & b & r & -> & A & B & _ & F). cbn in N. inversion F as [|? ? Fa Fb]. inversion Fb as [|? ? Fc Fd]. exists x, b, r. auto. }
    split; intros L W.
    - exact (other_x509 sz alg alg' params params' key_enc key_dec p k ltac:(lia) Po D L s rest H W).
    - exact (other_pkcs8 sz alg alg' params params' key_enc key_dec p k a ltac:(lia) Po D L s rest H W).
  Qed.
End C68.

(** An algorithm with NULL parameters and a key that is an octet string, as for RSA. *)
Definition toy_params : codec unit := mkCodec unit (fun _ => der_null) (ber_null 64).
Definition toy_key_dec (present : bool) (size : Z) (s : src) : option (list Z * src) := ber_octet_string 64 s.
Example C68_example :
  valid_oid [1; 2; 840] /\ reads_in (c_dec toy_params) tt (c_enc toy_params tt) /\
  (forall pr n k, len k < 2 ^ 64 -> reads_in (toy_key_dec pr n) k (der_octet_string k)) /\
  x509_dec 64 [1; 2; 840] toy_params toy_key_dec (plain (x509_enc [1; 2; 840] toy_params der_octet_string tt [7; 8] ++ [1])) = Some (Some tt, [7; 8], plain [1]) /\
  pkcs8_dec 64 [1; 2; 840] toy_params toy_key_dec (plain (pkcs8_enc [1; 2; 840] toy_params der_octet_string tt [7; 8] [160; 1; 5] ++ [1])) = Some (Some tt, [7; 8], [160; 1; 5], plain [1]).
Proof.
  split. { exists 1, 2, [840]. split; auto. split; [lia|]. split; [lia|]. split; [lia|]. repeat constructor; lia. }
  split. { apply reads_all_in, reads_back_all. apply C32_null. lia. }
  split. { intros pr n k L. apply reads_all_in, reads_back_all. apply C32_octet_string; auto. lia. }
  split; vm_compute; reflexivity.
Qed.

(* ------------------------------------------------------------------------- C69 *)

(** Objects of indefinite length, at any depth down to the first of definite length, become definite; every
    length written is minimal; the contents of objects of definite length are copied. *)
Theorem C69_reencode : forall b e s rest fuel, ber_wf b -> ber_der b e -> len e < 2 ^ 64 -> src_ok s -> visible s = ber_bytes b ++ rest ->
  (length (ber_bytes b) <= fuel)%nat ->
  der_reencode fuel s = Some (e, s_skip (len (ber_bytes b)) s) /\ visible (s_skip (len (ber_bytes b)) s) = rest.
Proof.
  intros b e s rest fuel W D L H V F. split; [|apply visible_skip_app; auto]. apply (reencode_reads b W e D L fuel s rest H); auto.
  pose proof (ber_depth_le b W). lia.
Qed.

(** An object already in DER is copied unchanged. *)
Theorem C69_der_unchanged : forall tag c e s rest, byte tag -> bytes c -> len c < 2 ^ 64 -> len e < 2 ^ 64 -> der_object tag c e -> src_ok s -> visible s = e ++ rest ->
  der_reencode (length e) s = Some (e, s_skip (len e) s).
Proof.
  intros tag c e s rest Bt Bc Lc Le D H V. pose proof D as D'. destruct D' as (le & Dl & Ee). pose proof (len_nonneg c).
  assert (W : ber_wf (Definite tag le c)). { split; auto. split; [apply der_len_ber; auto|auto]. }
  assert (Eb : ber_bytes (Definite tag le c) = e) by (symmetry; exact Ee).
  destruct (C69_reencode (Definite tag le c) e s rest (length e) W) as (X & _); auto; rewrite ?Eb; auto. rewrite Eb in X. auto.
Qed.

(** What is copied may itself be of indefinite length: the result is then not DER. *)
Theorem C69_inside_definite_refuted :
  let inner := [36; 128; 4; 1; 7; 0; 0] in
  ber_wf (Definite 48 [7] inner) /\ der_reencode 9 (plain ([48; 7] ++ inner)) = Some ([48; 7] ++ inner, plain []) /\
  der_reencode 7 (plain inner) = Some ([36; 3; 4; 1; 7], plain []).
Proof.
  cbv zeta. split; [|split; vm_compute; reflexivity]. split; [unfold byte; lia|]. split; [left; split; [reflexivity|split; [discriminate|reflexivity]]|].
  split; [repeat constructor; unfold byte; lia|reflexivity].
Qed.

Example C69_example :
  let b := Indefinite 48 [Definite 4 [129; 2] [7; 8]; Indefinite 36 [Definite 4 [1] [9]]] in
  ber_wf b /\ der_reencode 30 (plain (ber_bytes b ++ [5])) = Some ([48; 9; 4; 2; 7; 8; 36; 3; 4; 1; 9], plain [5]) /\ ber_der b [48; 9; 4; 2; 7; 8; 36; 3; 4; 1; 9].
Proof.
  cbv zeta. split; [|split].
  - assert (W1 : ber_wf (Definite 4 [129; 2] [7; 8])).
    { split; [unfold byte; lia|]. split; [|split; [repeat constructor; unfold byte; lia|reflexivity]].
      right. exists [2]. split; [reflexivity|]. split; [split; reflexivity|]. split; [repeat constructor; unfold byte; lia|reflexivity]. }
    assert (W2 : ber_wf (Definite 4 [1] [9])).
    { split; [unfold byte; lia|]. split; [|split; [repeat constructor; unfold byte; lia|reflexivity]].
      left. split; [reflexivity|split; [discriminate|reflexivity]]. }
    split; [unfold byte; lia|]. split; [reflexivity|]. split; [exact W1|]. split; [discriminate|]. split; [|split; [discriminate|exact I]].
    split; [unfold byte; lia|]. split; [reflexivity|]. split; [exact W2|]. split; [discriminate|exact I].
  - vm_compute. reflexivity.
  - exists [[4; 2; 7; 8]; [36; 3; 4; 1; 9]]. split; [split; [|split; auto]|].
    + exists [2]. split; reflexivity.
    + exists [[4; 1; 9]]. split; [split; auto; exists [1]; split; reflexivity|]. exists [3]. split; reflexivity.
    + exists [9]. split; reflexivity.
Qed.

Print Assumptions C31_accepts_exactly_ber.
Print Assumptions C32_documents.
Print Assumptions C33_round_trip_partial.
Print Assumptions C34_nested.
Print Assumptions C68_x509_round_trip.
Print Assumptions C68_pkcs8_round_trip.
Print Assumptions C68_truncated_refused.
Print Assumptions C68_other_algorithm_refused.
Print Assumptions C69_reencode.
