(** What authenticated encryption is supposed to do.  Part one: an ideal object that remembers the IV, the
    header and the message given so far and says what every call must return.  Part two: the four algorithms,
    as in SP 800-38D (GCM), SP 800-38C (CCM), the EAX paper and RFC 8439. *)
From Coq Require Import ZArith List Bool Arith.
From Verif Require Import Base Blocks MacSpec Poly1305Model Poly1305Spec AeadModel.
Import ListNotations.
Local Open Scope Z_scope.

(** An algorithm. [i_stream iv p]: keystream byte [p]; [i_tag iv header text]: the tag, over the plaintext if
    [i_on_plain] and over the ciphertext otherwise. [i_needs]: lengths must be announced. [i_fresh]: a new
    message may be started before the old one is finished, and after one whose lengths were not as announced. *)
Record ideal := mkI { i_on_plain : bool; i_digest : nat; i_iv_ok : nat -> bool; i_maxh : Z; i_maxm : list Z -> Z;
  i_needs : bool; i_fresh : bool; i_stream : list Z -> nat -> Z; i_tag : list Z -> list Z -> list Z -> list Z }.

(** Arguments are byte strings, announced lengths are 64-bit numbers. *)
Definition aop_ok (op : aop) : Prop :=
  match op with
  | AStart iv l => bytes iv /\ match l with Some (h, m) => 0 <= h < 2 ^ 64 /\ 0 <= m < 2 ^ 64 | None => True end
  | AUpdate d | AProcess d => bytes d
  | _ => True
  end.

Section Machine.
  Variable id : ideal.
  Variable forward : bool.

  (** Encryption and decryption of a piece [d] at position [p]. *)
  Definition i_crypt (iv : list Z) (p : nat) (d : list Z) : list Z := xorl d (map (i_stream id iv) (seq p (length d))).
  (** The text the tag is computed over, given the whole input. *)
  Definition i_text (iv inp : list Z) : list Z := if Bool.eqb (i_on_plain id) forward then inp else i_crypt iv 0 inp.

  (** Between calls: no IV ([exact]: the next Final throws BadState, otherwise BadState or InvalidArgument); header data so
      far; message data so far; footer data (never supported: no tag can be had any more); or the caller broke
      the rules and nothing is said. *)
  Inductive phase := PNone (exact : bool) | PHead (iv : list Z) (lengths : option (Z * Z)) (hdr : list Z)
    | PBody (iv : list Z) (lengths : option (Z * Z)) (hdr inp : list Z) | PFoot (n : Z) | PBroken.
  Inductive expect := XOut (o : aout) | XRefused | XAny.

  Definition right_h (lengths : option (Z * Z)) (hdr : list Z) : bool :=
    negb (i_needs id) || match lengths with Some (h, _) => h =? len64 hdr | None => false end.
  Definition right_m (lengths : option (Z * Z)) (inp : list Z) : bool :=
    negb (i_needs id) || match lengths with Some (_, m) => m =? len64 inp | None => false end.

  Definition spec_start (ph : phase) (iv : list Z) (lengths : option (Z * Z)) : phase * expect :=
    if match ph with PNone _ => true | _ => i_fresh id end then
      if i_iv_ok id (length iv) then
        match lengths with
        | None => if i_needs id then (PBroken, XOut ODone) else (PHead iv None [], XOut ODone)
        | Some (h, m) =>
          if (i_maxh id <? h) || (i_maxm id iv <? m) then (if i_needs id then PBroken else PHead iv None [], XOut OInvalid)
          else (PHead iv lengths [], XOut ODone)
        end
      else (PNone true, XOut OInvalid)
    else (PBroken, XAny).
  Definition spec_update (ph : phase) (d : list Z) : phase * expect :=
    if Nat.eqb (length d) 0 then (ph, XOut ODone)
    else match ph with
    | PNone _ => (ph, XOut OBadState)
    | PHead iv l hdr => if len64 (hdr ++ d) <? 2 ^ 64 then (PHead iv l (hdr ++ d), XOut ODone) else (PBroken, XAny)
    | PBody iv l hdr inp =>
      if right_m l inp then if len64 d <? 2 ^ 64 then (PFoot (len64 d), XOut ODone) else (PBroken, XAny)
      else (ph, XOut OInvalid)
    | PFoot n => if n + len64 d <? 2 ^ 64 then (PFoot (n + len64 d), XOut ODone) else (PBroken, XAny)
    | PBroken => (ph, XAny)
    end.
  Definition spec_process (ph : phase) (d : list Z) : phase * expect :=
    match ph with
    | PNone _ => (ph, XOut OBadState)
    | PHead iv l hdr =>
      if i_maxm id iv <? len64 d then (ph, XOut OInvalid)
      else if right_h l hdr then (PBody iv l hdr d, XOut (OBytes (i_crypt iv 0 d))) else (PBroken, XOut OInvalid)
    | PBody iv l hdr inp =>
      if i_maxm id iv <? len64 inp + len64 d then (ph, XOut OInvalid)
      else (PBody iv l hdr (inp ++ d), XOut (OBytes (i_crypt iv (length inp) d)))
    | PFoot _ => (ph, XRefused)
    | PBroken => (ph, XAny)
    end.
  Definition spec_final (ph : phase) (n : nat) : phase * expect :=
    if Nat.ltb (i_digest id) n then (ph, XOut OInvalid)
    else match ph with
    | PNone true => (ph, XOut OBadState)
    | PNone false => (ph, XRefused)
    | PHead iv l hdr =>
      if i_maxh id <? len64 hdr then (ph, XOut OInvalid)
      else if right_h l hdr then
        if right_m l [] then (PNone true, XOut (OBytes (firstn n (i_tag id iv hdr [])))) else (PBroken, XOut OInvalid)
      else (ph, XOut OInvalid)
    | PBody iv l hdr inp =>
      if i_maxh id <? len64 hdr then (ph, XOut OInvalid)
      else if right_m l inp then (PNone true, XOut (OBytes (firstn n (i_tag id iv hdr (i_text iv inp)))))
      else (ph, XOut OInvalid)
    | PFoot _ => (ph, XOut OInvalid)
    | PBroken => (ph, XAny)
    end.
  Definition spec_verify (ph : phase) (tag : list Z) : phase * expect :=
    let '(ph1, x) := spec_final ph (length tag) in
    (ph1, match x with XOut (OBytes t) => XOut (OBool (if list_eq_dec Z.eq_dec t tag then true else false)) | _ => x end).
  Definition spec_restart (ph : phase) : phase :=
    match ph with
    | PNone _ => ph
    | PHead _ _ hdr | PBody _ _ hdr _ => if i_fresh id then PNone (len64 hdr <=? i_maxh id) else PBroken
    | PFoot _ => if i_fresh id then PNone false else PBroken
    | PBroken => if i_fresh id then PNone false else PBroken
    end.

  Definition spec_astep (ph : phase) (op : aop) : phase * expect :=
    match op with
    | AStart iv l => spec_start ph iv l
    | AUpdate d => spec_update ph d
    | AProcess d => spec_process ph d
    | AFinal n => spec_final ph n
    | AVerify tag => spec_verify ph tag
    | ARestart => (spec_restart ph, XOut ODone)
    end.
  Fixpoint spec_arun (ph : phase) (ops : list aop) : list expect :=
    match ops with
    | [] => []
    | op :: r => let '(ph1, x) := spec_astep ph op in x :: spec_arun ph1 r
    end.
  (** The phase a history leads to. *)
  Fixpoint spec_phase (ph : phase) (ops : list aop) : phase :=
    match ops with
    | [] => ph
    | op :: r => spec_phase (fst (spec_astep ph op)) r
    end.
  Definition meets (x : expect) (o : aout) : Prop :=
    match x with XOut o' => o = o' | XRefused => o = OBadState \/ o = OInvalid | XAny => True end.

  (** The one-call functions: what a successful EncryptAndAuthenticate puts out. *)
  Definition i_ciphertext (iv message : list Z) : list Z := i_crypt iv 0 message.
  Definition i_fits (iv hdr message : list Z) : Prop :=
    i_iv_ok id (length iv) = true /\ len64 hdr <= i_maxh id /\ len64 message <= i_maxm id iv.
  (** The announcement of the lengths: none, unless the algorithm needs it; or one within the limits and, if the algorithm
      needs it, a true one. *)
  Definition i_announced (iv : list Z) (lengths : option (Z * Z)) (hdr message : list Z) : Prop :=
    match lengths with
    | None => i_needs id = false
    | Some (h, m) => 0 <= h <= i_maxh id /\ 0 <= m <= i_maxm id iv /\ (i_needs id = true -> h = len64 hdr /\ m = len64 message)
    end.
  (** A new message may be started after the history [ops] of an object that was just given its key. *)
  Definition i_ready (ops : list aop) : Prop :=
    Forall aop_ok ops /\ match spec_phase (PNone true) ops with PNone _ => True | _ => i_fresh id = true end.
End Machine.

(* ---------------------------------------------------------------- the algorithms *)

Definition pad16 (l : list Z) : list Z := l ++ repeat 0 ((16 - length l mod 16) mod 16)%nat.

(** GCM: [gmul] is multiplication by the hash key. *)
Definition ghash (gmul : list Z -> list Z) (x : list Z) : list Z :=
  fold_left (fun y b => gmul (xorl y b)) (blocks 16 x) (repeat 0 16).
Definition gcm_j0 (gmul : list Z -> list Z) (iv : list Z) : list Z :=
  if Nat.eqb (length iv) 12 then iv ++ [0; 0; 0; 1] else ghash gmul (pad16 iv ++ be_bytes 8 0 ++ be_bytes 8 (8 * len64 iv)).
Definition inc32 (v : Z) : Z := v / 2 ^ 32 * 2 ^ 32 + (v + 1) mod 2 ^ 32.
(** The counter block for message block [j]: inc32 applied [j] times to the first one. *)
Definition gcm_counter (first : Z) (j : nat) : list Z := be_bytes 16 (Nat.iter j inc32 first).
Definition gcm_keystream (e gmul : list Z -> list Z) (first : Z -> Z) (iv : list Z) (p : nat) : Z :=
  nth (p mod 16) (e (gcm_counter (first (be_val (gcm_j0 gmul iv))) (p / 16))) 0.
Definition gcm_tag (e gmul : list Z -> list Z) (iv a c : list Z) : list Z :=
  xorl (ghash gmul (pad16 a ++ pad16 c ++ be_bytes 8 (8 * len64 a) ++ be_bytes 8 (8 * len64 c))) (e (gcm_j0 gmul iv)).
(** [first] gives the counter of the first message block from that of the tag: [inc32] in the standard, a
    128-bit increment in the library. *)
Definition add128 (v : Z) : Z := (v + 1) mod 2 ^ 128.
Definition gcm_ideal (e gmul : list Z -> list Z) (first : Z -> Z) : ideal :=
  mkI false 16 (fun n => Nat.leb 1 n && (Z.of_nat n <=? 2 ^ 32 - 1)) (2 ^ 61 - 1) (fun _ => 2 ^ 36 - 32) false true
    (gcm_keystream e gmul first) (gcm_tag e gmul).

(** CCM with tags of [t] bytes; [q] is the number of bytes of the message length. *)
Definition ccm_q (iv : list Z) : nat := (15 - length iv)%nat.
Definition ccm_b0 (t : nat) (iv a p : list Z) : list Z :=
  ((if Nat.eqb (length a) 0 then 0 else 64) + 8 * ((Z.of_nat t - 2) / 2) + (Z.of_nat (ccm_q iv) - 1))
  :: iv ++ be_bytes (ccm_q iv) (len64 p).
Definition ccm_aad (a : list Z) : list Z :=
  if Nat.eqb (length a) 0 then []
  else if len64 a <? 2 ^ 16 - 2 ^ 8 then be_bytes 2 (len64 a) ++ a
  else if len64 a <? 2 ^ 32 then [255; 254] ++ be_bytes 4 (len64 a) ++ a
  else [255; 255] ++ be_bytes 8 (len64 a) ++ a.
Definition ccm_counter (iv : list Z) (i : Z) : list Z := (Z.of_nat (ccm_q iv) - 1) :: iv ++ be_bytes (ccm_q iv) i.
Definition ccm_mac (e : list Z -> list Z) (t : nat) (iv a p : list Z) : list Z :=
  fold_left (fun y b => e (xorl y b)) (blocks 16 (ccm_b0 t iv a p ++ pad16 (ccm_aad a) ++ pad16 p)) (repeat 0 16).
Definition ccm_tag (e : list Z -> list Z) (t : nat) (iv a p : list Z) : list Z :=
  firstn t (xorl (ccm_mac e t iv a p) (e (ccm_counter iv 0))).
Definition ccm_keystream (e : list Z -> list Z) (iv : list Z) (p : nat) : Z :=
  nth (p mod 16) (e (ccm_counter iv (Z.of_nat (p / 16) + 1))) 0.
Definition ccm_ideal (e : list Z -> list Z) (t : nat) : ideal :=
  mkI true t (fun n => Nat.leb 7 n && Nat.leb n 13) (2 ^ 64 - 1) (fun iv => 2 ^ (8 * Z.of_nat (ccm_q iv)) - 1) true true
    (ccm_keystream e) (ccm_tag e t).

(** EAX over a cipher with blocks of [B] bytes; [p] is the polynomial of CMAC for that size. *)
Definition eax_omac (e : list Z -> list Z) (B : nat) (p : Z) (t : Z) (m : list Z) : list Z :=
  cmac_spec e B p ((repeat 0 (B - 1) ++ [t]) ++ m).
Definition eax_keystream (e : list Z -> list Z) (B : nat) (p : Z) (iv : list Z) (k : nat) : Z :=
  nth (k mod B) (e (be_bytes B (be_val (eax_omac e B p 0 iv) + Z.of_nat (k / B)))) 0.
Definition eax_tag (e : list Z -> list Z) (B : nat) (p : Z) (iv a c : list Z) : list Z :=
  xorl (xorl (eax_omac e B p 0 iv) (eax_omac e B p 2 c)) (eax_omac e B p 1 a).
Definition eax_ideal (e : list Z -> list Z) (B : nat) (p : Z) : ideal :=
  mkI false B (fun n => Z.of_nat n <=? 2 ^ 32 - 1) (2 ^ 64 - 1) (fun _ => 2 ^ 64 - 1) false false
    (eax_keystream e B p) (eax_tag e B p).

(** ChaCha20-Poly1305; [cblock iv n] is keystream block [n]. *)
Definition chp_keystream (cblock : list Z -> Z -> list Z) (iv : list Z) (p : nat) : Z :=
  nth (p mod 64) (cblock iv (1 + Z.of_nat (p / 64))) 0.
Definition chp_tag (cblock : list Z -> Z -> list Z) (iv a c : list Z) : list Z :=
  poly1305_tls (firstn 32 (cblock iv 0)) (pad16 a ++ pad16 c ++ le_bytes 8 (len64 a) ++ le_bytes 8 (len64 c)).
Definition chp_ideal (cblock : list Z -> Z -> list Z) (ivsize : nat) : ideal :=
  mkI false 16 (fun n => Nat.eqb n ivsize) (2 ^ 64 - 1) (fun _ => 274877906880) false true
    (chp_keystream cblock) (chp_tag cblock).

(* ---------------------------------------------------------------- the objects *)

Definition on_blocks (B : nat) (e : list Z -> list Z) : Prop := forall b, length b = B -> length (e b) = B /\ bytes (e b).
(** [aead md id b]: [b] is an object of the library just given its key, [md] its code, [id] its algorithm. *)
Inductive aead : forall M : Type, mode M -> ideal -> base M -> Prop :=
| is_gcm : forall e gmul junk hash c, on_blocks 16 e -> on_blocks 16 gmul -> length junk = 16%nat -> bytes junk ->
    aead gcm (gcm_mode e gmul) (gcm_ideal e gmul add128) (gcm_keyed junk hash c)
| is_ccm : forall e t junk cbc c, on_blocks 16 e -> (4 <= t <= 16)%nat -> length junk = 16%nat -> bytes junk -> length cbc = 16%nat ->
    aead ccm (ccm_mode e t) (ccm_ideal e t) (ccm_keyed junk cbc c)
| is_eax : forall e B p junk n c, on_blocks B e -> cmac_poly B = Some p -> bytes junk ->
    aead eax (eax_mode e B) (eax_ideal e B p) (eax_keyed e B junk n c)
| is_chp : forall cblock ivsize junk m, (forall iv n, length (cblock iv n) = 64%nat /\ bytes (cblock iv n)) -> bytes junk ->
    length (po_acc (cp_mac m)) = 16%nat -> bytes (po_acc (cp_mac m)) -> (po_idx (cp_mac m) < 16)%nat ->
    aead chp (chp_mode cblock ivsize) (chp_ideal cblock ivsize) (chp_keyed junk m).
Arguments aead {M}.
