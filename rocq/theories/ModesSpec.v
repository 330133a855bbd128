(** What the modes and stream ciphers have to compute, on byte strings. *)
From Coq Require Import ZArith List Bool Arith.
From Verif Require Import Base Blocks Mem ModesModel.
Import ListNotations.
Local Open Scope Z_scope.

(** A block cipher: an invertible map on byte blocks of [bs] bytes, with inverse [D]. *)
Definition block_ok (bs : nat) (b : list Z) : Prop := length b = bs /\ bytes b.
Definition cipher_ok (bs : nat) (E : list Z -> list Z) : Prop := forall b, block_ok bs b -> block_ok bs (E b).
Definition inverse (bs : nat) (E D : list Z -> list Z) : Prop := forall b, block_ok bs b -> D (E b) = b.

(* SP 800-38A, on lists of blocks *)
Definition ecb_spec (E : list Z -> list Z) (bs : nat) (msg : list Z) : list Z := concat (map E (blocks bs msg)).
Fixpoint cbc_enc_blocks (E : list Z -> list Z) (prev : list Z) (ps : list (list Z)) : list (list Z) :=
  match ps with [] => [] | p :: r => let c := E (xorl p prev) in c :: cbc_enc_blocks E c r end.
Fixpoint cbc_dec_blocks (D : list Z -> list Z) (prev : list Z) (cs : list (list Z)) : list (list Z) :=
  match cs with [] => [] | c :: r => xorl (D c) prev :: cbc_dec_blocks D c r end.
Definition cbc_enc_spec E bs iv msg := concat (cbc_enc_blocks E iv (blocks bs msg)).
Definition cbc_dec_spec D bs iv msg := concat (cbc_dec_blocks D iv (blocks bs msg)).

(** CBC with ciphertext stealing (SP 800-38A addendum, CBC-CS3): encrypt the zero-padded message, exchange
    the last two blocks, cut to the length of the message. *)
Definition cts_spec (E : list Z -> list Z) (bs : nat) (iv msg : list Z) : list Z :=
  let padded := msg ++ repeat 0 ((bs - length msg mod bs) mod bs) in
  let c := cbc_enc_spec E bs iv padded in
  let n := length c in
  firstn (length msg) (firstn (n - 2 * bs) c ++ skipn (n - bs) c ++ firstn bs (skipn (n - 2 * bs) c)).

(** CFB with segments of [f] bytes: the register shifts in the ciphertext segment. *)
Fixpoint cfb_enc_segs (E : list Z -> list Z) (f : nat) (reg : list Z) (ps : list (list Z)) : list (list Z) :=
  match ps with
  | [] => []
  | p :: r => let c := xorl p (firstn f (E reg)) in c :: cfb_enc_segs E f (skipn f reg ++ c) r
  end.
Fixpoint cfb_dec_segs (E : list Z -> list Z) (f : nat) (reg : list Z) (cs : list (list Z)) : list (list Z) :=
  match cs with
  | [] => []
  | c :: r => xorl c (firstn f (E reg)) :: cfb_dec_segs E f (skipn f reg ++ c) r
  end.
Definition cfb_spec (enc : bool) E f iv msg :=
  concat ((if enc then cfb_enc_segs else cfb_dec_segs) E f iv (blocks f msg ++ [rest f msg])).

(** The keystream of an additive cipher: byte [p] is byte [p mod bpi] of block [p / bpi]. *)
Definition keystream (kb : Z -> list Z) (bpi : nat) : mem :=
  fun p => nth (Z.to_nat (p mod Z.of_nat bpi)) (kb (p / Z.of_nat bpi)) 0.
(** OFB: block i is the cipher applied i+1 times to the IV.  CTR: the cipher applied to IV + i,
    as big-endian numbers modulo 256^bs. *)
Definition ofb_block (E : list Z -> list Z) (iv : list Z) (i : Z) : list Z := Nat.iter (S (Z.to_nat i)) E iv.
Definition ctr_block (E : list Z -> list Z) (bs : nat) (iv : list Z) (i : Z) : list Z := E (be_bytes bs (be_val iv + i)).

(** Histories of an additive cipher: the state is the IV and the position in its keystream. *)
Inductive sexp := XBytes (l : list Z) | XDone | XRefused.
Definition spec_sstep (kb : list Z -> Z -> list Z) (bpi ivsize : nat) (seekable : bool) (st : list Z * Z) (op : sop) : (list Z * Z) * sexp :=
  let '(iv, pos) := st in
  let ks := keystream (kb iv) bpi in
  match op with
  | SProcess m out inp len => ((iv, pos + Z.of_nat len), XBytes (xorl (load m inp len) (load ks pos len)))
  | SGenerate m out len => ((iv, pos + Z.of_nat len), XBytes (load ks pos len))
  | SSeek position => if seekable then ((iv, position), XDone) else ((iv, pos), XRefused)
  | SResync iv' _ =>
    if Nat.eqb (length iv') ivsize then ((iv', 0), XDone)
    (* a refused IV costs the rest of the current keystream block *)
    else ((iv, (pos + Z.of_nat bpi - 1) / Z.of_nat bpi * Z.of_nat bpi), XRefused)
  end.
Fixpoint spec_srun kb bpi ivsize seekable st ops : list sexp :=
  match ops with
  | [] => []
  | op :: r => let '(st', x) := spec_sstep kb bpi ivsize seekable st op in x :: spec_srun kb bpi ivsize seekable st' r
  end.
(** What a call did is what was expected: the right bytes at [out] and nothing else touched. *)
Definition agrees (op : sop) (x : sexp) (o : sout) : Prop :=
  match op, x, o with
  | SProcess m out _ len, XBytes l, SMem m' => load m' out len = l /\ same_outside m m' out len
  | SGenerate m out len, XBytes l, SMem m' => load m' out len = l /\ same_outside m m' out len
  | SSeek _, XDone, SDone | SSeek _, XRefused, SRefused => True
  | SResync _ _, XDone, SDone | SResync _ _, XRefused, SRefused => True
  | _, _, _ => False
  end.
Fixpoint all_agree (ops : list sop) (xs : list sexp) (os : list sout) : Prop :=
  match ops, xs, os with
  | [], [], [] => True
  | op :: ops', x :: xs', o :: os' => agrees op x o /\ all_agree ops' xs' os'
  | _, _, _ => False
  end.
Definition sop_ok (op : sop) : Prop :=
  match op with
  | SProcess m out inp len => regions_ok inp out len
  | SGenerate _ _ _ => True
  | SSeek position => 0 <= position < 2 ^ 64
  | SResync iv _ => bytes iv
  end.

(** A policy implements a keystream: [keyed p] says that [p] holds the key, [prep p iv i] that [p] is about to
    produce block [i] for [iv]. *)
Record policy_law {P} (pl : policy P) (kb : list Z -> Z -> list Z) (keyed : P -> Prop) (prep : P -> list Z -> Z -> Prop) : Prop := {
  law_bpi : pl_bpi pl <> 0%nat;
  law_iters : pl_iters pl <> 0%nat;
  law_write : forall p iv i m a n, prep p iv i -> 0 <= i -> n <> 0%nat ->
    let '(p', m') := pl_write pl p m a n in
    prep p' iv (i + Z.of_nat n) /\
    load m' a (n * pl_bpi pl) = load (keystream (kb iv) (pl_bpi pl)) (i * Z.of_nat (pl_bpi pl)) (n * pl_bpi pl) /\
    same_outside m m' a (n * pl_bpi pl);
  law_operate : pl_can pl = true -> forall p iv i m out inp n, prep p iv i -> 0 <= i -> n <> 0%nat ->
    regions_ok inp out (n * pl_bpi pl) ->
    let '(p', m') := pl_operate pl p m out inp n in
    prep p' iv (i + Z.of_nat n) /\
    load m' out (n * pl_bpi pl) =
      xorl (load m inp (n * pl_bpi pl)) (load (keystream (kb iv) (pl_bpi pl)) (i * Z.of_nat (pl_bpi pl)) (n * pl_bpi pl)) /\
    same_outside m m' out (n * pl_bpi pl);
  law_keyed : forall p iv i, prep p iv i -> keyed p;
  law_resync : forall p iv, keyed p -> length iv = pl_ivsize pl -> bytes iv -> prep (pl_resync pl p iv) iv 0;
  law_seek : forall sk p iv i j, pl_seek pl = Some sk -> prep p iv i -> 0 <= j -> prep (sk p j) iv j
}.

(** Histories of the block modes: what went in, what came out, and that nothing else was touched. *)
Definition ins (cs : list call) : list Z := concat (map (fun c => load (cl_mem c) (cl_in c) (cl_len c)) cs).
Fixpoint outs (cs : list call) (ms : list mem) : list Z :=
  match cs, ms with c :: cs', m :: ms' => load m (cl_out c) (cl_len c) ++ outs cs' ms' | _, _ => [] end.
Fixpoint untouched (cs : list call) (ms : list mem) : Prop :=
  match cs, ms with
  | [], [] => True
  | c :: cs', m :: ms' => same_outside (cl_mem c) m (cl_out c) (cl_len c) /\ untouched cs' ms'
  | _, _ => False
  end.
(** Byte memory; in place or not overlapping; [unit] divides the length. *)
Definition call_ok (unit : nat) (c : call) : Prop :=
  mem_ok (cl_mem c) /\ regions_ok (cl_in c) (cl_out c) (cl_len c) /\ (cl_len c mod unit = 0)%nat.

(** CFB: the IV in force and what was processed under it so far. *)
Fixpoint spec_fops (enc : bool) E (bs fb : nat) (iv hist : list Z) (ops : list fop) (os : list fout) : Prop :=
  match ops, os with
  | [], [] => True
  | FProcess _ c :: ops', FMem m' :: os' =>
      let msg := load (cl_mem c) (cl_in c) (cl_len c) in
      load m' (cl_out c) (cl_len c) = skipn (length hist) (cfb_spec enc E fb iv (hist ++ msg)) /\
      same_outside (cl_mem c) m' (cl_out c) (cl_len c) /\
      spec_fops enc E bs fb iv (hist ++ msg) ops' os'
  | FResync iv' :: ops', o :: os' =>
      if Nat.eqb (length iv') bs then o = FDone /\ spec_fops enc E bs fb iv' [] ops' os'
      else o = FRefused /\ spec_fops enc E bs fb iv hist ops' os'
  | _, _ => False
  end.
Definition fop_ok (op : fop) : Prop :=
  match op with FProcess _ c => call_ok 1 c | FResync iv => bytes iv end.

(** The IV in force after a history of an additive cipher. *)
Fixpoint iv_after (ivsize : nat) (iv : list Z) (ops : list sop) : list Z :=
  match ops with
  | [] => iv
  | SResync iv' _ :: r => iv_after ivsize (if Nat.eqb (length iv') ivsize then iv' else iv) r
  | _ :: r => iv_after ivsize iv r
  end.
