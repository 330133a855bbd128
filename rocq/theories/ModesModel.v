(** Model of the block cipher modes (modes.cpp, modes.h), of BlockTransformation::AdvancedProcessBlocks
    (cryptlib.cpp) and of the stream cipher templates (strciphr.cpp, strciphr.h).

    Caller's buffers live in one byte memory, so that in-place operation and overlap can be expressed.
    The objects' own buffers (register, counter, keystream buffer) are separate. *)
From Coq Require Import ZArith List Bool Arith.
From Verif Require Import Base Blocks Mem.
Import ListNotations.
Local Open Scope Z_scope.

(** A pointer: null, into the caller's memory, or to the start of one of the object's own blocks
    (whose content is [v]).  Moving a pointer to an own block makes it useless (empty block). *)
Inductive ptr := PNull | PMem (a : Z) | PReg (v : list Z).
Definition padd (p : ptr) (d : Z) : ptr :=
  match p with
  | PMem a => PMem (a + d)
  | _ => if d =? 0 then p else PReg []
  end.
Definition is_null (p : ptr) : bool := match p with PNull => true | _ => false end.
Definition loadp (m : mem) (p : ptr) (n : nat) : list Z :=
  match p with PNull => [] | PMem a => load m a n | PReg v => firstn n v end.

(** cryptlib.h:829-850: the flags of AdvancedProcessBlocks (BT_AllowParallel has no effect here). *)
Record bt := mkBT { bt_counter : bool; bt_dontinc : bool; bt_xorin : bool; bt_reverse : bool }.
Definition bt0 := mkBT false false false false.
Definition bt_ctr := mkBT true false false false.
Definition bt_xor := mkBT false false true false.
Definition bt_rev := mkBT false false false true.

(** The increment of the last byte of a counter block. *)
Definition inc_last (v : list Z) : list Z :=
  match v with [] => [] | _ => upd (length v - 1) ((nth (length v - 1) v 0 + 1) mod 256) v end.

Section Modes.
  (** The keyed cipher in the direction the mode uses. *)
  Variable E : list Z -> list Z.
  Variable bs : nat.
  Notation B := (Z.of_nat bs).

  (** ProcessAndXorBlock (implemented by each cipher): xor is optional, output written last. *)
  Definition pax (m : mem) (inp xorp : ptr) (out : Z) : mem :=
    store m out (if is_null xorp then E (loadp m inp bs) else xorl (E (loadp m inp bs)) (loadp m xorp bs)).

  (** cryptlib.cpp:165-188: the while loop. Result: memory, the in-block pointer (its counter), bytes left. *)
  Fixpoint apb_loop (fuel : nat) (m : mem) (inp xorp : ptr) (out : Z) (len : nat) (fl : bt) (inInc xorInc outInc : Z)
    : mem * ptr * nat :=
    match fuel with
    | O => (m, inp, len)
    | S f =>
      if Nat.leb bs len then
        let m1 :=
          if negb (is_null xorp) && bt_xorin fl then
            let m' := store m out (xorl (loadp m xorp bs) (loadp m inp bs)) in
            store m' out (E (load m' out bs))
          else pax m inp xorp out in
        let '(m2, inp2) :=
          if bt_counter fl then
            match inp with
            | PReg v => (m1, PReg (inc_last v))
            | PMem a => (store m1 (a + B - 1) [(m1 (a + B - 1) + 1) mod 256], inp)
            | PNull => (m1, inp)
            end
          else (m1, inp) in
        apb_loop f m2 (padd inp2 inInc) (padd xorp xorInc) (out + outInc) (len - bs) fl inInc xorInc outInc
      else (m, inp, len)
    end.
  (** cryptlib.cpp:141-188 *)
  Definition apb (m : mem) (inp xorp : ptr) (out : Z) (len : nat) (fl : bt) : mem * ptr * nat :=
    let inInc := if bt_counter fl || bt_dontinc fl then 0 else B in
    let xorInc := if is_null xorp then 0 else B in
    let outInc := if bt_dontinc fl then 0 else B in
    if bt_reverse fl then
      let d := Z.of_nat len - B in
      apb_loop len m (padd inp d) (padd xorp d) (out + d) len fl (- inInc) (- xorInc) (- outInc)
    else apb_loop len m inp xorp out len fl inInc xorInc outInc.
  Definition apb_mem (m : mem) (inp xorp : ptr) (out : Z) (len : nat) (fl : bt) : mem :=
    let '(m', _, _) := apb m inp xorp out len fl in m'.

  (** modes.cpp:187-191: ECB_OneWay::ProcessData *)
  Definition ecb_process (m : mem) (out inp : Z) (len : nat) : mem := apb_mem m (PMem inp) PNull out len bt0.

  (** modes.cpp:193-204: CBC_Encryption::ProcessData; the second component is m_register. *)
  Definition cbc_encrypt (m : mem) (reg : list Z) (out inp : Z) (len : nat) : mem * list Z :=
    if Nat.eqb len 0 then (m, reg)
    else
      let m1 := apb_mem m (PMem inp) (PReg reg) out bs bt_xor in
      let m2 := if Nat.ltb bs len then apb_mem m1 (PMem (inp + B)) (PMem out) (out + B) (len - bs) bt_xor else m1 in
      (m2, load m2 (out + (Z.of_nat len - B)) bs).
  (** modes.cpp:246-259: CBC_Decryption::ProcessData ([E] is the inverse cipher) *)
  Definition cbc_decrypt (m : mem) (reg : list Z) (out inp : Z) (len : nat) : mem * list Z :=
    if Nat.eqb len 0 then (m, reg)
    else
      let temp := load m (inp + (Z.of_nat len - B)) bs in
      let m1 := if Nat.ltb bs len then apb_mem m (PMem (inp + B)) (PMem inp) (out + B) (len - bs) bt_rev else m in
      (pax m1 (PMem inp) (PReg reg) out, temp).

  (** xorbuf(reg, p, n) on an own block *)
  Definition xor_reg (reg : list Z) (d : list Z) : list Z := write 0 (xorl (firstn (length d) reg) d) reg.
  (** modes.cpp:206-237: CBC_CTS_Encryption::ProcessLastBlock; [stolen]: m_stolenIV; [None]: InvalidArgument.
      The result is the memory and m_register. *)
  Definition cts_encrypt_last (m : mem) (reg : list Z) (stolen : option Z) (out inp : Z) (len : nat) : option (mem * list Z) :=
    let finish m reg out inp len :=
      let reg1 := E (xor_reg reg (load m inp len)) in (store m out (firstn bs reg1), reg1) in
    if Nat.leb len bs then
      match stolen with
      | None => None
      | Some iv =>
        let m1 := store m out (firstn len reg) in
        Some (finish m1 reg iv inp len)
      end
    else
      let reg1 := E (xor_reg reg (load m inp bs)) in
      let m1 := store m (out + B) (firstn (len - bs) reg1) in
      Some (finish m1 reg1 out (inp + B) (len - bs)%nat).
  (** modes.cpp:261-301: CBC_CTS_Decryption::ProcessLastBlock *)
  Definition cts_decrypt_last (m : mem) (reg : list Z) (out inp : Z) (len : nat) : mem :=
    let steal := Nat.leb len bs in
    let '(pn1, pn2, n) := if steal then (inp, PReg reg, len) else (inp + B, PMem inp, (len - bs)%nat) in
    let temp := xor_reg (E (loadp m pn2 bs)) (load m pn1 n) in
    if steal then store m out (firstn n temp)
    else
      let m1 := store m (out + B) (firstn n temp) in
      let temp2 := E (write 0 (load m1 pn1 n) temp) in
      store m1 out (xorl temp2 reg).

  (* ------------------------------------------------------------------ CFB *)

  (** m_register, m_leftOver; the feedback size [fb] is m_feedbackSize (modes.cpp:85-91). *)
  Record cfb := mkCF { cf_reg : list Z; cf_left : nat }.
  Variable fb : nat.
  (** modes.cpp:32-56: CFB_ModePolicy::Iterate; returns memory and register. *)
  Definition cfb_iterate (enc : bool) (m : mem) (reg : list Z) (out inp : Z) (n : nat) : mem * list Z :=
    let last := B * (Z.of_nat n - 1) in
    if enc then
      let m1 := pax m (PReg reg) (PMem inp) out in
      let m2 := if Nat.ltb 1 n then apb_mem m1 (PMem out) (PMem (inp + B)) (out + B) ((n - 1) * bs) bt0 else m1 in
      (m2, load m2 (out + last) bs)
    else
      let temp := load m (inp + last) bs in
      let m1 := if Nat.ltb 1 n then apb_mem m (PMem inp) (PMem (inp + B)) (out + B) ((n - 1) * bs) bt_rev else m in
      (pax m1 (PReg reg) (PMem inp) out, temp).
  (** modes.cpp:58-68: CFB_ModePolicy::TransformRegister *)
  Definition cfb_transform (reg : list Z) : list Z := skipn fb reg ++ firstn fb (E reg).
  (** strciphr.cpp:236-253 and modes.cpp:99-104: CombineMessageAndShiftRegister at offset [pos] of the
      last [fb] bytes of the register. *)
  Definition cfb_combine (enc : bool) (reg : list Z) (pos : nat) (msg : list Z) : list Z * list Z :=
    let off := (bs - fb + pos)%nat in
    let r := firstn (length msg) (skipn off reg) in
    if enc then let c := xorl r msg in (c, write off c reg)
    else (xorl r msg, write off msg reg).
  (** strciphr.cpp:217-225 *)
  Fixpoint cfb_segments (fuel : nat) (enc : bool) (m : mem) (reg : list Z) (out inp : Z) (len : nat) : mem * list Z * Z * Z * nat :=
    match fuel with
    | O => (m, reg, out, inp, len)
    | S f =>
      if Nat.leb fb len then
        let '(o, reg1) := cfb_combine enc (cfb_transform reg) 0 (load m inp fb) in
        cfb_segments f enc (store m out o) reg1 (out + Z.of_nat fb) (inp + Z.of_nat fb) (len - fb)
      else (m, reg, out, inp, len)
    end.
  (** strciphr.cpp:180-233: CFB_CipherTemplate::ProcessData with CFB_ModePolicy; [aligned]: outAligned. *)
  Definition cfb_process (enc aligned : bool) (s : cfb) (m : mem) (out inp : Z) (len : nat) : mem * cfb :=
    let l := if Nat.eqb (cf_left s) 0 then O else Nat.min (cf_left s) len in
    let '(m, reg) :=
      if Nat.eqb (cf_left s) 0 then (m, cf_reg s)
      else let '(o, r) := cfb_combine enc (cf_reg s) (fb - cf_left s) (load m inp l) in (store m out o, r) in
    let left := (cf_left s - l)%nat in
    let inp := inp + Z.of_nat l in let out := out + Z.of_nat l in let len := (len - l)%nat in
    if Nat.eqb len 0 then (m, mkCF reg left)
    else
      let '(m, reg, out, inp, len) :=
        if Nat.eqb fb bs && Nat.leb fb len && aligned then
          let '(m, reg) := cfb_iterate enc m reg out inp (len / fb) in
          let r := (len mod fb)%nat in
          (m, reg, out + Z.of_nat (len - r), inp + Z.of_nat (len - r), r)
        else (m, reg, out, inp, len) in
      let '(m, reg, out, inp, len) := cfb_segments len enc m reg out inp len in
      if Nat.ltb 0 len then
        let '(o, reg) := cfb_combine enc (cfb_transform reg) 0 (load m inp len) in
        (store m out o, mkCF reg (fb - len))
      else (m, mkCF reg left).
  (** strciphr.cpp:171-177, modes.cpp:70-83: Resynchronize with an IV of the right length. *)
  Definition cfb_resync (iv : list Z) : cfb := mkCF (cfb_transform iv) fb.
End Modes.

(* -------------------------------------------------------------------- additive ciphers *)

(** strciphr.h AdditiveCipherAbstractPolicy: what the template calls. *)
Record policy (P : Type) := mkPol {
  pl_bpi : nat;                                     (* GetBytesPerIteration *)
  pl_iters : nat;                                   (* GetIterationsToBuffer *)
  pl_can : bool;                                    (* CanOperateKeystream *)
  pl_write : P -> mem -> Z -> nat -> P * mem;       (* WriteKeystream(buffer, iterations) *)
  pl_operate : P -> mem -> Z -> Z -> nat -> P * mem;(* OperateKeystream(_, output, input, iterations) *)
  pl_ivsize : nat;
  pl_resync : P -> list Z -> P;                     (* CipherResynchronize *)
  pl_seek : option (P -> Z -> P)                    (* SeekToIteration; None: not random access *)
}.
Arguments pl_bpi {P}. Arguments pl_iters {P}. Arguments pl_can {P}. Arguments pl_write {P}.
Arguments pl_operate {P}. Arguments pl_ivsize {P}. Arguments pl_resync {P}. Arguments pl_seek {P}.

(** misc.h:1383-1398; overflow of size_t is left out. *)
Definition round_up (n m : nat) : nat := ((n + m - 1) / m * m)%nat.

Section Additive.
  Context {P : Type}.
  Variable pl : policy P.
  Notation bpi := (pl_bpi pl).
  (** The policy, m_buffer with its size, m_leftOver. *)
  Record additive := mkAC { ac_p : P; ac_buf : mem; ac_size : nat; ac_left : nat }.
  (** PtrSub(KeystreamBufferEnd(), n), relative to the start of m_buffer *)
  Definition from_end (s : additive) (n : nat) : Z := Z.of_nat (ac_size s) - Z.of_nat n.

  (** strciphr.cpp:16-31: the end of UncheckedSetKey; [fresh]: what m_buffer.New happens to contain. *)
  Definition ac_setkey (p : P) (iv : list Z) (fresh : mem) : additive :=
    let n := (bpi * pl_iters pl)%nat in
    mkAC (pl_resync pl p iv) fresh (if pl_can pl then n else round_up 1024 n) 0.
  (** strciphr.cpp:34-65 *)
  Definition ac_generate (s : additive) (m : mem) (out : Z) (len : nat) : additive * mem :=
    let l := if Nat.ltb 0 (ac_left s) then Nat.min (ac_left s) len else O in
    let m := if Nat.ltb 0 (ac_left s) then store m out (load (ac_buf s) (from_end s (ac_left s)) l) else m in
    let had := Nat.ltb 0 (ac_left s) in
    let s := mkAC (ac_p s) (ac_buf s) (ac_size s) (ac_left s - l) in
    let out := out + Z.of_nat l in let len := (len - l)%nat in
    if had && Nat.eqb len 0 then (s, m)
    else
      let n := (len / bpi)%nat in
      let '(p, m) := if Nat.leb bpi len then pl_write pl (ac_p s) m out n else (ac_p s, m) in
      let out := if Nat.leb bpi len then out + Z.of_nat (n * bpi) else out in
      let len := if Nat.leb bpi len then (len - n * bpi)%nat else len in
      let s := mkAC p (ac_buf s) (ac_size s) (ac_left s) in
      if Nat.ltb 0 len then
        let k := round_up len bpi in
        let '(p, buf) := pl_write pl (ac_p s) (ac_buf s) (from_end s k) (k / bpi) in
        let s := mkAC p buf (ac_size s) (ac_left s) in
        (mkAC p buf (ac_size s) (k - len), store m out (load buf (from_end s k) len))
      else (s, m).
  (** strciphr.cpp:106-115: the loop over whole buffers *)
  Fixpoint ac_buffers (fuel : nat) (s : additive) (m : mem) (out inp : Z) (len : nat) : additive * mem * Z * Z * nat :=
    match fuel with
    | O => (s, m, out, inp, len)
    | S f =>
      let k := ac_size s in
      if Nat.leb k len then
        let '(p, buf) := pl_write pl (ac_p s) (ac_buf s) 0 (k / bpi) in
        ac_buffers f (mkAC p buf k (ac_left s)) (store m out (xorl (load m inp k) (load buf 0 k)))
          (out + Z.of_nat k) (inp + Z.of_nat k) (len - k)
      else (s, m, out, inp, len)
    end.
  (** strciphr.cpp:67-127 *)
  Definition ac_process (s : additive) (m : mem) (out inp : Z) (len : nat) : additive * mem :=
    let l := if Nat.ltb 0 (ac_left s) then Nat.min (ac_left s) len else O in
    let m := if Nat.ltb 0 (ac_left s) then store m out (xorl (load m inp l) (load (ac_buf s) (from_end s (ac_left s)) l)) else m in
    let s := mkAC (ac_p s) (ac_buf s) (ac_size s) (ac_left s - l) in
    let out := out + Z.of_nat l in let inp := inp + Z.of_nat l in let len := (len - l)%nat in
    if Nat.eqb len 0 then (s, m)
    else
      let n := (len / bpi)%nat in
      let op := pl_can pl && Nat.leb bpi len in
      let '(p, m) := if op then pl_operate pl (ac_p s) m out inp n else (ac_p s, m) in
      let s := mkAC p (ac_buf s) (ac_size s) (ac_left s) in
      let d := if op then (n * bpi)%nat else O in
      let '(s, m, out, inp, len) := ac_buffers len s m (out + Z.of_nat d) (inp + Z.of_nat d) (len - d) in
      if Nat.ltb 0 len then
        let k := round_up len bpi in
        let '(p, buf) := pl_write pl (ac_p s) (ac_buf s) (from_end s k) (k / bpi) in
        (mkAC p buf (ac_size s) (k - len), store m out (xorl (load m inp len) (load buf (from_end s k) len)))
      else (s, m).
  (** strciphr.cpp:129-136.  The length of the IV is checked after the buffer was given up:
      [false] means InvalidArgument. *)
  Definition ac_resync (s : additive) (iv : list Z) (fresh : mem) : additive * bool :=
    let n := (bpi * pl_iters pl)%nat in
    if Nat.eqb (length iv) (pl_ivsize pl) then (mkAC (pl_resync pl (ac_p s) iv) fresh n 0, true)
    else (mkAC (ac_p s) fresh n 0, false).
  (** strciphr.cpp:138-154; [None]: NotImplemented. *)
  Definition ac_seek (s : additive) (position : Z) : option additive :=
    match pl_seek pl with
    | None => None
    | Some sk =>
      let p := sk (ac_p s) (position / Z.of_nat bpi) in
      let pos := Z.to_nat (position mod Z.of_nat bpi) in
      if Nat.ltb 0 pos then
        let '(p, buf) := pl_write pl p (ac_buf s) (from_end s bpi) 1 in
        Some (mkAC p buf (ac_size s) (bpi - pos))
      else Some (mkAC p (ac_buf s) (ac_size s) 0)
    end.

  (** Call histories.  Each call comes with the memory as it is at that moment. *)
  Inductive sop :=
  | SProcess (m : mem) (out inp : Z) (len : nat)
  | SGenerate (m : mem) (out : Z) (len : nat)
  | SSeek (position : Z)
  | SResync (iv : list Z) (fresh : mem).
  Inductive sout := SMem (m : mem) | SDone | SRefused.
  Definition ac_step (s : additive) (op : sop) : additive * sout :=
    match op with
    | SProcess m out inp len => let '(s', m') := ac_process s m out inp len in (s', SMem m')
    | SGenerate m out len => let '(s', m') := ac_generate s m out len in (s', SMem m')
    | SSeek position => match ac_seek s position with Some s' => (s', SDone) | None => (s, SRefused) end
    | SResync iv fresh => let '(s', ok) := ac_resync s iv fresh in (s', if ok then SDone else SRefused)
    end.
  Fixpoint ac_run (s : additive) (ops : list sop) : list sout :=
    match ops with
    | [] => []
    | op :: r => let '(s', o) := ac_step s op in o :: ac_run s' r
    end.
End Additive.
Arguments mkAC {P}. Arguments ac_p {P}. Arguments ac_buf {P}. Arguments ac_size {P}. Arguments ac_left {P}.

(* -------------------------------------------------------------------- OFB and CTR policies *)

Section Policies.
  Variable E : list Z -> list Z.
  Variable bs : nat.
  Variable par : nat.   (* m_cipher->OptimalNumberOfParallelBlocks() *)
  Notation B := (Z.of_nat bs).

  (** modes.cpp:106-117: OFB_ModePolicy::WriteKeystream; the state is m_register. *)
  Definition ofb_write (reg : list Z) (m : mem) (ks : Z) (n : nat) : list Z * mem :=
    let m1 := store m ks (E reg) in
    let m2 := if Nat.ltb 1 n then apb_mem E bs m1 (PMem ks) PNull (ks + B) (bs * (n - 1)) bt0 else m1 in
    (load m2 (ks + B * (Z.of_nat n - 1)) bs, m2).
  (** modes.h:206-221; modes.cpp:119-126 *)
  Definition ofb_policy : policy (list Z) :=
    mkPol _ bs par false ofb_write (fun p m _ _ _ => (p, m)) bs (fun _ iv => iv) None.

  (** m_register, m_counterArray *)
  Record ctr := mkCT { ct_reg : list Z; ct_counter : list Z }.
  (** misc.h:1508-1519: IncrementCounterByOne on the first [size] bytes *)
  Fixpoint inc_counter (c : list Z) (size : nat) : list Z :=
    match size with
    | O => c
    | S k => let v := (nth k c 0 + 1) mod 256 in
             let c' := upd k v c in if v =? 0 then inc_counter c' k else c'
    end.
  (** modes.cpp:128-138: CTR_ModePolicy::SeekToIteration *)
  Fixpoint ctr_seek_loop (reg : list Z) (i : nat) (cnt carry : Z) (arr : list Z) : list Z :=
    match i with
    | O => arr
    | S k => let sum := nth k reg 0 + cnt mod 256 + carry in
             ctr_seek_loop reg k (Z.shiftr cnt 8) (Z.shiftr sum 8) (upd k (Z.land sum 255) arr)
    end.
  Definition ctr_seek (s : ctr) (it : Z) : ctr := mkCT (ct_reg s) (ctr_seek_loop (ct_reg s) bs it 0 (ct_counter s)).
  (** modes.cpp:145-172: CTR_ModePolicy::OperateKeystream; [inp] is null for WriteKeystream. *)
  Fixpoint ctr_operate (fuel : nat) (c : list Z) (m : mem) (out : Z) (inp : ptr) (n : nat) : list Z * mem :=
    match fuel with
    | O => (c, m)
    | S f =>
      if Nat.eqb n 0 then (c, m)
      else
        let lsb := nth (bs - 1) c 0 in
        let blocks := Nat.min n (Z.to_nat (256 - lsb)) in
        let inc := Z.of_nat (blocks * bs) in
        let '(m1, c1, _) := apb E bs m (PReg c) inp out (blocks * bs) bt_ctr in
        let c1 := match c1 with PReg v => v | _ => c end in
        let l := (lsb + Z.of_nat blocks) mod 256 in
        let c2 := upd (bs - 1) l c1 in
        let c3 := if l =? 0 then inc_counter c2 (bs - 1) else c2 in
        ctr_operate f c3 m1 (out + inc) (if is_null inp then inp else padd inp inc) (n - blocks)
    end.
  (** modes.h:223-249, modes.cpp:174-183 *)
  Definition ctr_policy : policy ctr :=
    mkPol _ bs par true
      (fun s m ks n => let '(c, m') := ctr_operate n (ct_counter s) m ks PNull n in (mkCT (ct_reg s) c, m'))
      (fun s m out inp n => let '(c, m') := ctr_operate n (ct_counter s) m out (PMem inp) n in (mkCT (ct_reg s) c, m'))
      bs (fun _ iv => mkCT iv iv) (Some ctr_seek).
End Policies.

(* -------------------------------------------------------------------- histories of the block modes *)

(** A call ProcessData(out, in, len) with the memory as it is at that moment. *)
Record call := mkCall { cl_mem : mem; cl_out : Z; cl_in : Z; cl_len : nat }.
(** Successive calls on one object whose state is [st]; the memories they leave. *)
Fixpoint run_calls {T} (f : T -> call -> mem * T) (st : T) (cs : list call) : list mem * T :=
  match cs with
  | [] => ([], st)
  | c :: r => let '(m', st') := f st c in let '(ms, st'') := run_calls f st' r in (m' :: ms, st'')
  end.
Definition ecb_call E bs (st : unit) (c : call) : mem * unit := (ecb_process E bs (cl_mem c) (cl_out c) (cl_in c) (cl_len c), st).
Definition cbc_enc_call E bs (reg : list Z) (c : call) := cbc_encrypt E bs (cl_mem c) reg (cl_out c) (cl_in c) (cl_len c).
Definition cbc_dec_call D bs (reg : list Z) (c : call) := cbc_decrypt D bs (cl_mem c) reg (cl_out c) (cl_in c) (cl_len c).
Definition ac_call {P} (pl : policy P) (s : additive) (c : call) : mem * additive :=
  let '(s', m') := ac_process pl s (cl_mem c) (cl_out c) (cl_in c) (cl_len c) in (m', s').

(** CFB objects: ProcessData and Resynchronize; an IV of the wrong length throws before anything changed
    (strciphr.cpp:171-177). *)
Inductive fop := FProcess (aligned : bool) (c : call) | FResync (iv : list Z).
Inductive fout := FMem (m : mem) | FDone | FRefused.
Definition cfb_step E bs fb enc (s : cfb) (op : fop) : cfb * fout :=
  match op with
  | FProcess al c => let '(m', s') := cfb_process E bs fb enc al s (cl_mem c) (cl_out c) (cl_in c) (cl_len c) in (s', FMem m')
  | FResync iv => if Nat.eqb (length iv) bs then (cfb_resync E fb iv, FDone) else (s, FRefused)
  end.
Fixpoint cfb_ops E bs fb enc (s : cfb) (ops : list fop) : list fout :=
  match ops with
  | [] => []
  | op :: r => let '(s', o) := cfb_step E bs fb enc s op in o :: cfb_ops E bs fb enc s' r
  end.
