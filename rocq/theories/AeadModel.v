(** Model of the authenticated encryption framework (authenc.cpp, authenc.h, cryptlib.cpp) and of its four modes:
    GCM (gcm.cpp), CCM (ccm.cpp), EAX (eax.cpp) and ChaCha20Poly1305 (chachapoly.cpp).
    Parameters: the keyed block cipher, the GHASH product by the hash key, the ChaCha block function.
    Simplified: message buffers are lists, so input and output buffers are equal or disjoint; the hash buffer of
    GCM and the CBC buffer of CCM, which live behind the first block of m_buffer, are fields of their own; the CTR
    object inside a mode is its keystream position (see [ctrs]).  SetKey is the initial state. *)
From Coq Require Import ZArith List Bool Arith.
From Verif Require Import Base Blocks HashModel ModesModel MacModel Poly1305Model.
Import ListNotations.
Local Open Scope Z_scope.

(** authenc.h:68: enum State *)
Inductive astate := SKeySet | SIVSet | SUntransformed | STransformed | SFooter.
(** What a call does: returns, returns bytes, returns a bool, throws BadState, throws InvalidArgument. *)
Inductive aout := ODone | OBytes (d : list Z) | OBool (b : bool) | OBadState | OInvalid.

Definition len64 (d : list Z) : Z := Z.of_nat (length d).
(** lword arithmetic. *)
Definition w64 (x : Z) : Z := x mod 2 ^ 64.

(** authenc.h:62-72: m_state, the first block of m_buffer, m_bufferedDataLength, the three totals, and the part
    that belongs to the mode. *)
Record base (M : Type) := mkB { b_state : astate; b_buf : list Z; b_num : nat; b_hdr : Z; b_msg : Z; b_ftr : Z; b_m : M }.
Arguments mkB {M}. Arguments b_state {M}. Arguments b_buf {M}. Arguments b_num {M}. Arguments b_hdr {M}.
Arguments b_msg {M}. Arguments b_ftr {M}. Arguments b_m {M}.

(** The virtual functions of authenc.h:49-60 and the length limits of cryptlib.h:1336-1350.
    [None] from the "last block" functions is an InvalidArgument thrown before anything is changed. *)
Record mode (M : Type) := mkMode {
  md_bs : nat;                                          (* AuthenticationBlockSize *)
  md_on_plain : bool;                                   (* AuthenticationIsOnPlaintext *)
  md_digest : nat;                                      (* DigestSize *)
  md_iv_ok : nat -> bool;                               (* MinIVLength .. MaxIVLength *)
  md_maxh : Z; md_maxm : M -> Z;                        (* MaxHeaderLength, MaxMessageLength; MaxFooterLength is 0 *)
  md_resync : base M -> list Z -> base M;               (* Resync *)
  md_specify : base M -> Z -> Z -> base M;              (* UncheckedSpecifyDataLengths in State_IVSet *)
  md_blocks : M -> list Z -> M * nat;                   (* AuthenticateBlocks: bytes left over *)
  md_last_header : base M -> option (base M);           (* AuthenticateLastHeaderBlock *)
  md_last_conf : base M -> option (base M);             (* AuthenticateLastConfidentialBlock *)
  md_last_footer : base M -> nat -> base M * list Z;    (* AuthenticateLastFooterBlock *)
  md_cipher : M -> list Z -> M * list Z                 (* AccessSymmetricCipher().ProcessData *)
}.
Arguments mkMode {M}. Arguments md_bs {M}. Arguments md_on_plain {M}. Arguments md_digest {M}. Arguments md_iv_ok {M}.
Arguments md_maxh {M}. Arguments md_maxm {M}. Arguments md_resync {M}. Arguments md_specify {M}. Arguments md_blocks {M}.
Arguments md_last_header {M}. Arguments md_last_conf {M}. Arguments md_last_footer {M}. Arguments md_cipher {M}.

Section Framework.
  Context {M : Type}.
  Variable md : mode M.
  Variable forward : bool.      (* IsForwardTransformation *)

  Definition set_state (b : base M) (s : astate) : base M := mkB s (b_buf b) (b_num b) (b_hdr b) (b_msg b) (b_ftr b) (b_m b).
  Definition set_num (b : base M) (n : nat) : base M := mkB (b_state b) (b_buf b) n (b_hdr b) (b_msg b) (b_ftr b) (b_m b).
  Definition set_buf (b : base M) (d : list Z) (n : nat) : base M := mkB (b_state b) d n (b_hdr b) (b_msg b) (b_ftr b) (b_m b).
  Definition set_m (b : base M) (m : M) : base M := mkB (b_state b) (b_buf b) (b_num b) (b_hdr b) (b_msg b) (b_ftr b) m.
  Definition add_hdr (b : base M) (n : Z) : base M := mkB (b_state b) (b_buf b) (b_num b) (w64 (b_hdr b + n)) (b_msg b) (b_ftr b) (b_m b).
  Definition add_msg (b : base M) (n : Z) : base M := mkB (b_state b) (b_buf b) (b_num b) (b_hdr b) (w64 (b_msg b + n)) (b_ftr b) (b_m b).
  Definition add_ftr (b : base M) (n : Z) : base M := mkB (b_state b) (b_buf b) (b_num b) (b_hdr b) (b_msg b) (w64 (b_ftr b + n)) (b_m b).

  (** authenc.cpp:39-49: whole blocks, then the rest into the buffer. *)
  Definition auth_tail (b : base M) (input : list Z) : base M :=
    let '(b1, input1) :=
      if Nat.leb (md_bs md) (length input) then
        let '(m, lo) := md_blocks md (b_m b) input in (set_m b m, skipn (length input - lo) input)
      else (b, input) in
    set_buf b1 (write 0 input1 (b_buf b1)) (length input1).
  (** authenc.cpp:11-49 *)
  Definition authenticate_data (b : base M) (input : list Z) : base M :=
    if Nat.eqb (length input) 0 then b
    else if Nat.ltb 0 (b_num b) then
      if Nat.leb (md_bs md) (b_num b + length input) then
        let take := (md_bs md - b_num b)%nat in
        let buf := write (b_num b) (firstn take input) (b_buf b) in
        let '(m, _) := md_blocks md (b_m b) (firstn (md_bs md) buf) in
        auth_tail (set_m (set_buf b buf 0) m) (skipn take input)
      else set_buf b (write (b_num b) input (b_buf b)) (b_num b + length input)
    else auth_tail b input.

  (** authenc.cpp:66-77; an IV of a wrong length throws InvalidArgument after the counters were cleared. *)
  Definition resynchronize (b : base M) (iv : list Z) : base M * aout :=
    let b0 := mkB SKeySet (b_buf b) 0 0 0 0 (b_m b) in
    if md_iv_ok md (length iv) then (set_state (md_resync md b0 iv) SIVSet, ODone) else (b0, OInvalid).
  (** cryptlib.cpp:233-245, called with footerLength 0; ccm.cpp:52-53 *)
  Definition specify_lengths (b : base M) (h m : Z) : base M * aout :=
    if md_maxh md <? h then (b, OInvalid)
    else if md_maxm md (b_m b) <? m then (b, OInvalid)
    else (md_specify md b h m, ODone).

  (** authenc.cpp:79-105 *)
  Definition update (b : base M) (input : list Z) : base M * aout :=
    if Nat.eqb (length input) 0 then (b, ODone)
    else match b_state b with
    | SKeySet => (b, OBadState)
    | SIVSet => (add_hdr (authenticate_data b input) (len64 input), ODone)
    | SUntransformed | STransformed =>
      match md_last_conf md b with
      | None => (b, OInvalid)
      | Some b1 => (add_ftr (authenticate_data (set_state (set_num b1 0) SFooter) input) (len64 input), ODone)
      end
    | SFooter => (add_ftr (authenticate_data b input) (len64 input), ODone)
    end.

  (** authenc.cpp:126-133: the two transforming states *)
  Definition process_body (b : base M) (input : list Z) : base M * aout :=
    match b_state b with
    | SUntransformed =>
      let b1 := authenticate_data b input in
      let '(m, out) := md_cipher md (b_m b1) input in (set_m b1 m, OBytes out)
    | STransformed =>
      let '(m, out) := md_cipher md (b_m b) input in (authenticate_data (set_m b m) out, OBytes out)
    | _ => (b, OBadState)
    end.
  (** authenc.cpp:107-137 *)
  Definition process (b : base M) (input : list Z) : base M * aout :=
    let n := len64 input in
    if (match b_state b with SKeySet => false | _ => true end) && (w64 (md_maxm md (b_m b) - b_msg b) <? n) then (b, OInvalid)
    else
      let b1 := add_msg b n in
      match b_state b1 with
      | SKeySet | SFooter => (b1, OBadState)
      | SIVSet =>
        match md_last_header md b1 with
        | None => (b1, OInvalid)
        | Some b2 => process_body (set_state (set_num b2 0) (if Bool.eqb (md_on_plain md) forward then SUntransformed else STransformed)) input
        end
      | _ => process_body b1 input
      end.

  (** authenc.cpp:171-182 *)
  Definition final_footer (b : base M) (size : nat) : base M * aout :=
    let '(b1, tag) := md_last_footer md b size in (set_state (set_num b1 0) SKeySet, OBytes tag).
  (** authenc.cpp:165-169 *)
  Definition final_conf (b : base M) (size : nat) : base M * aout :=
    match md_last_conf md b with
    | None => (b, OInvalid)
    | Some b1 => final_footer (set_num b1 0) size
    end.
  (** authenc.cpp:139-183 *)
  Definition truncated_final (b : base M) (size : nat) : base M * aout :=
    if Nat.ltb (md_digest md) size then (b, OInvalid)
    else if md_maxh md <? b_hdr b then (b, OInvalid)
    else if 0 <? b_ftr b then (b, OInvalid)
    else match b_state b with
    | SKeySet => (b, OBadState)
    | SIVSet =>
      match md_last_header md b with
      | None => (b, OInvalid)
      | Some b1 => final_conf (set_num b1 0) size
      end
    | SUntransformed | STransformed => final_conf b size
    | SFooter => final_footer b size
    end.

  (** cryptlib.cpp:406-413: TruncatedVerify; VerifyBufsEqual compares all the bytes. *)
  Definition truncated_verify (b : base M) (tag : list Z) : base M * aout :=
    if Nat.ltb (md_digest md) (length tag) then (b, OInvalid)
    else let '(b1, o) := truncated_final b (length tag) in
      (b1, match o with OBytes t => OBool (if list_eq_dec Z.eq_dec t tag then true else false) | _ => o end).

  (** authenc.h:44: Restart *)
  Definition restart (b : base M) : base M := match b_state b with SKeySet => b | _ => set_state b SKeySet end.

  (** The calls of a history.  [AStart iv lengths]: Resynchronize(iv), then SpecifyDataLengths if lengths are given. *)
  Inductive aop := AStart (iv : list Z) (lengths : option (Z * Z)) | AUpdate (d : list Z) | AProcess (d : list Z) | AFinal (n : nat)
    | AVerify (tag : list Z) | ARestart.
  Definition astep (b : base M) (op : aop) : base M * aout :=
    match op with
    | AStart iv decl =>
      let '(b1, o) := resynchronize b iv in
      match o, decl with
      | ODone, Some (h, m) => specify_lengths b1 h m
      | _, _ => (b1, o)
      end
    | AUpdate d => update b d
    | AProcess d => process b d
    | AFinal n => truncated_final b n
    | AVerify tag => truncated_verify b tag
    | ARestart => (restart b, ODone)
    end.
  Fixpoint arun (b : base M) (ops : list aop) : base M * list aout :=
    match ops with
    | [] => (b, [])
    | op :: r => let '(b1, o) := astep b op in let '(b2, os) := arun b1 r in (b2, o :: os)
    end.

  (** An exception leaves the function: the calls after it are not made. *)
  Fixpoint acalls (b : base M) (ops : list aop) : base M * list aout :=
    match ops with
    | [] => (b, [])
    | op :: r =>
      let '(b1, o) := astep b op in
      match o with
      | OBadState | OInvalid => (b1, [o])
      | _ => let '(b2, os) := acalls b1 r in (b2, o :: os)
      end
    end.
  (** cryptlib.cpp:247-254; chachapoly.cpp:97-103 is the same without SpecifyDataLengths ([lengths] false). *)
  Definition encrypt_and_authenticate (lengths : bool) (b : base M) (size : nat) (iv header message : list Z) : base M * list aout :=
    acalls b [AStart iv (if lengths then Some (len64 header, len64 message) else None); AUpdate header; AProcess message; AFinal size].
  (** cryptlib.cpp:256-263; chachapoly.cpp:105-111 *)
  Definition decrypt_and_verify (lengths : bool) (b : base M) (tag iv header message : list Z) : base M * list aout :=
    acalls b [AStart iv (if lengths then Some (len64 header, len64 message) else None); AUpdate header; AProcess message; AVerify tag].
End Framework.

(* ---------------------------------------------------------------- the counter mode inside GCM, CCM and EAX *)

(** The CTR object (modes.cpp:130-180, strciphr.cpp) inside a mode, by its observable state: the IV, the counter value
    at the last Resynchronize or Seek, and the number of keystream bytes used since.  ModesProperties proves
    that the buffered object behaves like this for the ordinary counter. *)
Record ctrs := mkC { c_iv : Z; c_start : Z; c_pos : nat }.
Definition ctr_set (iv : list Z) : ctrs := mkC (be_val iv) (be_val iv) 0.
(** modes.cpp:117-128: SeekToIteration adds to the whole counter, carrying to the first byte. *)
Definition ctr_seek_block (bs : nat) (s : ctrs) (k : Z) : ctrs := mkC (c_iv s) ((c_iv s + k) mod 256 ^ Z.of_nat bs) 0.
(** The counter [j] blocks after [v]: modes.cpp:106-115, 137-167; IncrementCounterBy256 carries to the first byte, that of
    GCTR (gcm.cpp:50-53) only through the last four bytes ([g] true). *)
Definition ctr_after (g : bool) (bs : nat) (v : Z) (j : nat) : Z :=
  if g then v / 2 ^ 32 * 2 ^ 32 + (v mod 2 ^ 32 + Z.of_nat j) mod 2 ^ 32 else (v + Z.of_nat j) mod 256 ^ Z.of_nat bs.
Definition ctr_keybyte (e : list Z -> list Z) (g : bool) (bs : nat) (s : ctrs) (p : nat) : Z :=
  nth (p mod bs) (e (be_bytes bs (ctr_after g bs (c_start s) (p / bs)))) 0.
(** strciphr.cpp:75-131: ProcessData *)
Definition ctr_process (e : list Z -> list Z) (g : bool) (bs : nat) (s : ctrs) (d : list Z) : ctrs * list Z :=
  (mkC (c_iv s) (c_start s) (c_pos s + length d), xorl d (map (ctr_keybyte e g bs s) (seq (c_pos s) (length d)))).

(** modes.cpp:137-167 with gcm.cpp:50-53: the loop of GCTR's OperateKeystream, as the list of the keystream blocks written.
    AdvancedProcessBlocks with BT_InBlockIsCounter (cryptlib.cpp:141-188) encrypts the block while counting its last byte up. *)
Fixpoint gctr_loop (e : list Z -> list Z) (fuel : nat) (c : list Z) (n : nat) : list Z * list (list Z) :=
  match fuel with
  | O => (c, [])
  | S f =>
    if Nat.eqb n 0 then (c, [])
    else
      let lsb := nth 15 c 0 in
      let blocks := Nat.min n (256 - Z.to_nat lsb) in
      let out := map (fun j => e (upd 15 ((lsb + Z.of_nat j) mod 256) c)) (seq 0 blocks) in
      let c1 := upd 15 ((lsb + Z.of_nat blocks) mod 256) c in
      let c2 := if nth 15 c1 0 =? 0 then firstn 12 c1 ++ inc_counter (firstn 3 (skipn 12 c1)) 3 ++ skipn 15 c1 else c1 in
      let '(c3, r) := gctr_loop e f c2 (n - blocks) in (c3, out ++ r)
  end.

Section BlockCipherModes.
  Variable e : list Z -> list Z.          (* the keyed block cipher, ProcessBlock *)

  (* -------------------------------------------------------------- GCM *)
  Variable gmul : list Z -> list Z.       (* multiplication by the hash key E(0), gcm.cpp:367-827 *)
  Record gcm := mkG { g_hash : list Z; g_ctr : ctrs }.
  (** gcm.cpp:367-827: AuthenticateBlocks for at least one block; on entry with fewer than 16 bytes the
      loop would still run once, but no caller does that. *)
  Definition ghash_blocks (h data : list Z) : list Z := fold_left (fun a x => gmul (xorl a x)) (blocks 16 data) h.
  Definition gcm_blocks (m : gcm) (data : list Z) : gcm * nat := (mkG (ghash_blocks (g_hash m) data) (g_ctr m), (length data mod 16)%nat).
  Definition put64 (x : Z) : list Z := be_bytes 8 x.
  (** gcm.cpp:316-358; [b_buf] is used as scratch space. *)
  Definition gcm_resync (b : base gcm) (iv : list Z) : base gcm :=
    let len := length iv in
    let '(hash, buf) :=
      if Nat.eqb len 12 then (iv ++ [0; 0; 0; 1], b_buf b)
      else
        let h0 := repeat 0 16 in
        let '(h1, lo) := if Nat.leb 16 len then (ghash_blocks h0 iv, (len mod 16)%nat) else (h0, len) in
        let tail := skipn (len - lo) iv in
        let '(h2, buf2) :=
          if Nat.ltb 0 lo then let buf := tail ++ repeat 0 (16 - lo) in (ghash_blocks h1 buf, buf) else (h1, b_buf b) in
        let buf3 := put64 0 ++ put64 (w64 (Z.of_nat len * 8)) in
        (ghash_blocks h2 buf3, buf3) in
    let c := ctr_seek_block 16 (ctr_set hash) 1 in
    mkB (b_state b) buf (b_num b) (b_hdr b) (b_msg b) (b_ftr b) (mkG (repeat 0 16) c).
  (** gcm.cpp:829-837 *)
  Definition gcm_last_header (b : base gcm) : option (base gcm) :=
    if Nat.ltb 0 (b_num b) then
      let buf := firstn (b_num b) (b_buf b) ++ repeat 0 (16 - b_num b) in
      Some (set_m (set_buf b buf 0) (fst (gcm_blocks (b_m b) buf)))
    else Some b.
  (** gcm.cpp:839-844 *)
  Definition gcm_last_conf (b : base gcm) : option (base gcm) :=
    match gcm_last_header b with
    | Some b1 => let buf := put64 (w64 (b_hdr b1 * 8)) ++ put64 (w64 (b_msg b1 * 8)) in
      Some (set_m (set_buf b1 buf (b_num b1)) (fst (gcm_blocks (b_m b1) buf)))
    | None => None
    end.
  (** gcm.cpp:846-851 *)
  Definition gcm_last_footer (b : base gcm) (size : nat) : base gcm * list Z :=
    let m := b_m b in
    let '(c, tag) := ctr_process e true 16 (ctr_seek_block 16 (g_ctr m) 0) (firstn size (g_hash m)) in
    (set_m b (mkG (g_hash m) c), tag).
  Definition gcm_cipher (m : gcm) (d : list Z) : gcm * list Z :=
    let '(c, out) := ctr_process e true 16 (g_ctr m) d in (mkG (g_hash m) c, out).
  (** gcm.h:50-64 *)
  Definition gcm_mode : mode gcm :=
    mkMode 16 false 16 (fun n => Nat.leb 1 n && (Z.of_nat n <=? 2 ^ 32 - 1)) (2 ^ 61 - 1) (fun _ => (2 ^ 39 - 256) / 8) gcm_resync (fun b _ _ => b) gcm_blocks
      gcm_last_header gcm_last_conf gcm_last_footer gcm_cipher.
  (** gcm.cpp:92-101 and 23-25: SetKeyWithoutResync leaves the buffer as it is; [junk] is its contents. *)
  Definition gcm_keyed (junk hash : list Z) (c : ctrs) : base gcm := mkB SKeySet junk 0 0 0 0 (mkG hash c).

  (* -------------------------------------------------------------- CCM *)
  Variable digest : nat.                  (* m_digestSize *)
  Record ccm := mkCC { cc_l : nat; cc_msg : Z; cc_aad : Z; cc_cbc : list Z; cc_ctr : ctrs }.
  (** ccm.cpp:27-48 *)
  Definition ccm_resync (b : base ccm) (iv : list Z) : base ccm :=
    let len := length iv in
    let L := let l := (16 - 1 - len)%nat in if Nat.ltb 8 l then 8%nat else l in
    let buf := Z.of_nat (L - 1) :: iv ++ repeat 0 (16 - 1 - len) in
    let c := ctr_seek_block 16 (ctr_set buf) 1 in
    mkB (b_state b) buf (b_num b) (b_hdr b) (b_msg b) (b_ftr b) (mkCC L 0 0 (cc_cbc (b_m b)) c).
  (** ccm.cpp:50-90 *)
  Definition ccm_specify (b : base ccm) (h m : Z) : base ccm :=
    let mm := b_m b in
    let flag := ((if 0 <? h then 64 else 0) + 8 * ((Z.of_nat digest - 2) / 2) + (Z.of_nat (cc_l mm) - 1)) mod 256 in
    let c1 := write 0 [flag] (cc_cbc mm) in
    let c2 := write 8 (be_bytes 8 m) c1 in
    let c3 := write 1 (firstn (15 - cc_l mm) (skipn 1 (b_buf b))) c2 in
    let b1 := set_m b (mkCC (cc_l mm) m h (e c3) (cc_ctr mm)) in
    if 0 <? h then
      if h <? 2 ^ 16 - 2 ^ 8 then set_buf b1 (write 0 (be_bytes 2 h) (b_buf b)) 2
      else if h <? 2 ^ 32 then set_buf b1 (write 2 (be_bytes 4 h) (write 0 [255; 254] (b_buf b))) 6
      else set_buf b1 (write 2 (be_bytes 8 h) (write 0 [255; 255] (b_buf b))) 10
    else b1.
  Definition ccm_set_cbc (m : ccm) (c : list Z) : ccm := mkCC (cc_l m) (cc_msg m) (cc_aad m) c (cc_ctr m).
  (** ccm.cpp:92-97, with the AdvancedProcessBlocks of MacModel *)
  Definition ccm_blocks (m : ccm) (data : list Z) : ccm * nat :=
    let '(c, lo) := apb_xor (length data) e 16 (cc_cbc m) data (length data) in (ccm_set_cbc m c, lo).
  (** ccm.cpp:107-112, 123-128 *)
  Definition ccm_flush (b : base ccm) : base ccm :=
    if Nat.ltb 0 (b_num b) then
      set_num (set_m b (ccm_set_cbc (b_m b) (e (xor_at 0 (firstn (b_num b) (b_buf b)) (cc_cbc (b_m b)))))) 0
    else b.
  (** ccm.cpp:99-113 *)
  Definition ccm_last_header (b : base ccm) : option (base ccm) :=
    if cc_aad (b_m b) =? b_hdr b then Some (ccm_flush b) else None.
  (** ccm.cpp:115-129 *)
  Definition ccm_last_conf (b : base ccm) : option (base ccm) :=
    if cc_msg (b_m b) =? b_msg b then Some (ccm_flush b) else None.
  (** ccm.cpp:131-135 *)
  Definition ccm_last_footer (b : base ccm) (size : nat) : base ccm * list Z :=
    let m := b_m b in
    let '(c, tag) := ctr_process e false 16 (ctr_seek_block 16 (cc_ctr m) 0) (firstn size (cc_cbc m)) in
    (set_m b (mkCC (cc_l m) (cc_msg m) (cc_aad m) (cc_cbc m) c), tag).
  Definition ccm_cipher (m : ccm) (d : list Z) : ccm * list Z :=
    let '(c, out) := ctr_process e false 16 (cc_ctr m) d in (mkCC (cc_l m) (cc_msg m) (cc_aad m) (cc_cbc m) c, out).
  (** ccm.h:43-68 *)
  Definition ccm_mode : mode ccm :=
    mkMode 16 true digest (fun n => Nat.leb 7 n && Nat.leb n 13) (2 ^ 64 - 1)
      (fun m => if Nat.ltb (cc_l m) 8 then 2 ^ (8 * Z.of_nat (cc_l m)) - 1 else 2 ^ 64 - 1)
      ccm_resync ccm_specify ccm_blocks ccm_last_header ccm_last_conf ccm_last_footer ccm_cipher.
  (** ccm.cpp:11-25 *)
  Definition ccm_keyed (junk cbc : list Z) (c : ctrs) : base ccm := mkB SKeySet junk 0 0 0 0 (mkCC 8 0 0 cbc c).

  (* -------------------------------------------------------------- EAX *)
  Variable B : nat.                       (* the block size *)
  (** The MAC object, the second block of m_buffer, the CTR object.  AuthenticationBlockSize is 1, so the framework
      never buffers anything; the first block of m_buffer is scratch space and is not kept. *)
  Record eax := mkX { x_mac : cmac; x_n : list Z; x_ctr : ctrs }.
  Definition eax_prefix (t : Z) : list Z := repeat 0 (B - 1) ++ [t].
  Definition cm_digest (s : cmac) (n : nat) : cmac * list Z := let '(s', o) := cm_final B s n in (s', match o with Some t => t | None => [] end).
  (** eax.cpp:14-27 *)
  Definition eax_resync (b : base eax) (iv : list Z) : base eax :=
    let s1 := cm_update B (x_mac (b_m b)) (repeat 0 B) in
    let '(s2, n) := cm_digest (cm_update B s1 iv) B in
    let s3 := cm_update B s2 (eax_prefix 1) in
    set_m b (mkX s3 n (ctr_set n)).
  (** eax.cpp:29-33 *)
  Definition eax_blocks (m : eax) (data : list Z) : eax * nat := (mkX (cm_update B (x_mac m) data) (x_n m) (x_ctr m), 0%nat).
  (** eax.cpp:35-47 *)
  Definition eax_last_header (b : base eax) : option (base eax) :=
    let m := b_m b in
    let '(s, t) := cm_digest (x_mac m) B in
    Some (set_m b (mkX (cm_update B s (eax_prefix 2)) (xorl (x_n m) t) (x_ctr m))).
  (** authenc.h:58: the default does nothing *)
  Definition eax_last_conf (b : base eax) : option (base eax) := Some b.
  (** eax.cpp:49-57 *)
  Definition eax_last_footer (b : base eax) (size : nat) : base eax * list Z :=
    let m := b_m b in
    let '(s, t) := cm_digest (x_mac m) size in
    (set_m b (mkX s (x_n m) (x_ctr m)), xorl t (firstn size (x_n m))).
  Definition eax_cipher (m : eax) (d : list Z) : eax * list Z :=
    let '(c, out) := ctr_process e false B (x_ctr m) d in (mkX (x_mac m) (x_n m) c, out).
  (** eax.h:36-58 *)
  Definition eax_mode : mode eax :=
    mkMode 1 false B (fun n => Z.of_nat n <=? 2 ^ 32 - 1) (2 ^ 64 - 1) (fun _ => 2 ^ 64 - 1) eax_resync (fun b _ _ => b) eax_blocks
      eax_last_header eax_last_conf eax_last_footer eax_cipher.
  (** eax.cpp:8-12: CMAC::SetKey *)
  Definition eax_keyed (junk n : list Z) (c : ctrs) : base eax :=
    mkB SKeySet junk 0 0 0 0 (mkX (cm_setkey (fun _ => e) B []) n c).
End BlockCipherModes.

(* ---------------------------------------------------------------- ChaCha20Poly1305 *)

Section ChaChaPoly.
  Variable cblock : list Z -> Z -> list Z.     (* the 64-byte keystream block of the keyed ChaCha for an IV and a block number *)
  Variable ivsize : nat.                       (* 12; 24 for XChaCha20Poly1305 *)
  Record chp := mkCP { cp_mac : poly; cp_iv : list Z; cp_first : Z; cp_pos : nat }.
  Definition chp_keybyte (m : chp) (p : nat) : Z := nth (p mod 64) (cblock (cp_iv m) (cp_first m + Z.of_nat (p / 64))) 0.
  Definition chp_cipher (m : chp) (d : list Z) : chp * list Z :=
    (mkCP (cp_mac m) (cp_iv m) (cp_first m) (cp_pos m + length d), xorl d (map (chp_keybyte m) (seq (cp_pos m) (length d)))).
  (** chachapoly.cpp:23-39, 58-63: [derived] is a zero block of 32 bytes, encrypted in place with block 0. *)
  Definition chp_resync (b : base chp) (iv : list Z) : base chp :=
    let m0 := mkCP (cp_mac (b_m b)) iv 0 0 in
    let '(_, derived) := chp_cipher m0 (repeat 0 32) in
    let mac := match pt_setkey (cp_mac (b_m b)) derived with Some s => s | None => cp_mac (b_m b) end in
    set_m b (mkCP mac iv 1 0).
  Definition chp_mac (m : chp) (d : list Z) : chp := mkCP (po_update (cp_mac m) d) (cp_iv m) (cp_first m) (cp_pos m).
  (** chachapoly.cpp:65-69 *)
  Definition chp_blocks (m : chp) (data : list Z) : chp * nat := (chp_mac m data, 0%nat).
  Definition chp_pad (total : Z) : list Z := repeat 0 (Z.to_nat ((16 - total mod 16) mod 16)).
  (** chachapoly.cpp:71-77 *)
  Definition chp_last_header (b : base chp) : option (base chp) := Some (set_m b (chp_mac (b_m b) (chp_pad (b_hdr b)))).
  (** chachapoly.cpp:79-85 *)
  Definition chp_last_conf (b : base chp) : option (base chp) := Some (set_m b (chp_mac (b_m b) (chp_pad (b_msg b)))).
  (** chachapoly.cpp:87-95 *)
  Definition chp_last_footer (b : base chp) (size : nat) : base chp * list Z :=
    let m := chp_mac (b_m b) (le_bytes 8 (b_hdr b) ++ le_bytes 8 (b_msg b)) in
    let '(s, o) := po_final (cp_mac m) size in
    (set_m b (mkCP s (cp_iv m) (cp_first m) (cp_pos m)), match o with Some t => t | None => [] end).
  (** chachapoly.h:58-70, 75-76 *)
  Definition chp_mode : mode chp :=
    mkMode 1 false 16 (fun n => Nat.eqb n ivsize) (2 ^ 64 - 1) (fun _ => 274877906880) chp_resync (fun b _ _ => b) chp_blocks
      chp_last_header chp_last_conf chp_last_footer chp_cipher.
  Definition chp_keyed (junk : list Z) (m : chp) : base chp := mkB SKeySet junk 0 0 0 0 m.
End ChaChaPoly.
