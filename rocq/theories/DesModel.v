(** DES as code: des.cpp and dessp.cpp. A machine word is a Z below 2^32, as in CipherModel. *)
From Coq Require Import ZArith List Bool Arith.
From Verif Require Import Base CipherModel.
Import ListNotations.
Local Open Scope Z_scope.

(** RawDES::Spbox (dessp.cpp:11-84) *)
Definition Spbox : list (list Z) := [
  [0x01010400; 0x00000000; 0x00010000; 0x01010404; 0x01010004; 0x00010404; 0x00000004; 0x00010000;
   0x00000400; 0x01010400; 0x01010404; 0x00000400; 0x01000404; 0x01010004; 0x01000000; 0x00000004;
   0x00000404; 0x01000400; 0x01000400; 0x00010400; 0x00010400; 0x01010000; 0x01010000; 0x01000404;
   0x00010004; 0x01000004; 0x01000004; 0x00010004; 0x00000000; 0x00000404; 0x00010404; 0x01000000;
   0x00010000; 0x01010404; 0x00000004; 0x01010000; 0x01010400; 0x01000000; 0x01000000; 0x00000400;
   0x01010004; 0x00010000; 0x00010400; 0x01000004; 0x00000400; 0x00000004; 0x01000404; 0x00010404;
   0x01010404; 0x00010004; 0x01010000; 0x01000404; 0x01000004; 0x00000404; 0x00010404; 0x01010400;
   0x00000404; 0x01000400; 0x01000400; 0x00000000; 0x00010004; 0x00010400; 0x00000000; 0x01010004];
  [0x80108020; 0x80008000; 0x00008000; 0x00108020; 0x00100000; 0x00000020; 0x80100020; 0x80008020;
   0x80000020; 0x80108020; 0x80108000; 0x80000000; 0x80008000; 0x00100000; 0x00000020; 0x80100020;
   0x00108000; 0x00100020; 0x80008020; 0x00000000; 0x80000000; 0x00008000; 0x00108020; 0x80100000;
   0x00100020; 0x80000020; 0x00000000; 0x00108000; 0x00008020; 0x80108000; 0x80100000; 0x00008020;
   0x00000000; 0x00108020; 0x80100020; 0x00100000; 0x80008020; 0x80100000; 0x80108000; 0x00008000;
   0x80100000; 0x80008000; 0x00000020; 0x80108020; 0x00108020; 0x00000020; 0x00008000; 0x80000000;
   0x00008020; 0x80108000; 0x00100000; 0x80000020; 0x00100020; 0x80008020; 0x80000020; 0x00100020;
   0x00108000; 0x00000000; 0x80008000; 0x00008020; 0x80000000; 0x80100020; 0x80108020; 0x00108000];
  [0x00000208; 0x08020200; 0x00000000; 0x08020008; 0x08000200; 0x00000000; 0x00020208; 0x08000200;
   0x00020008; 0x08000008; 0x08000008; 0x00020000; 0x08020208; 0x00020008; 0x08020000; 0x00000208;
   0x08000000; 0x00000008; 0x08020200; 0x00000200; 0x00020200; 0x08020000; 0x08020008; 0x00020208;
   0x08000208; 0x00020200; 0x00020000; 0x08000208; 0x00000008; 0x08020208; 0x00000200; 0x08000000;
   0x08020200; 0x08000000; 0x00020008; 0x00000208; 0x00020000; 0x08020200; 0x08000200; 0x00000000;
   0x00000200; 0x00020008; 0x08020208; 0x08000200; 0x08000008; 0x00000200; 0x00000000; 0x08020008;
   0x08000208; 0x00020000; 0x08000000; 0x08020208; 0x00000008; 0x00020208; 0x00020200; 0x08000008;
   0x08020000; 0x08000208; 0x00000208; 0x08020000; 0x00020208; 0x00000008; 0x08020008; 0x00020200];
  [0x00802001; 0x00002081; 0x00002081; 0x00000080; 0x00802080; 0x00800081; 0x00800001; 0x00002001;
   0x00000000; 0x00802000; 0x00802000; 0x00802081; 0x00000081; 0x00000000; 0x00800080; 0x00800001;
   0x00000001; 0x00002000; 0x00800000; 0x00802001; 0x00000080; 0x00800000; 0x00002001; 0x00002080;
   0x00800081; 0x00000001; 0x00002080; 0x00800080; 0x00002000; 0x00802080; 0x00802081; 0x00000081;
   0x00800080; 0x00800001; 0x00802000; 0x00802081; 0x00000081; 0x00000000; 0x00000000; 0x00802000;
   0x00002080; 0x00800080; 0x00800081; 0x00000001; 0x00802001; 0x00002081; 0x00002081; 0x00000080;
   0x00802081; 0x00000081; 0x00000001; 0x00002000; 0x00800001; 0x00002001; 0x00802080; 0x00800081;
   0x00002001; 0x00002080; 0x00800000; 0x00802001; 0x00000080; 0x00800000; 0x00002000; 0x00802080];
  [0x00000100; 0x02080100; 0x02080000; 0x42000100; 0x00080000; 0x00000100; 0x40000000; 0x02080000;
   0x40080100; 0x00080000; 0x02000100; 0x40080100; 0x42000100; 0x42080000; 0x00080100; 0x40000000;
   0x02000000; 0x40080000; 0x40080000; 0x00000000; 0x40000100; 0x42080100; 0x42080100; 0x02000100;
   0x42080000; 0x40000100; 0x00000000; 0x42000000; 0x02080100; 0x02000000; 0x42000000; 0x00080100;
   0x00080000; 0x42000100; 0x00000100; 0x02000000; 0x40000000; 0x02080000; 0x42000100; 0x40080100;
   0x02000100; 0x40000000; 0x42080000; 0x02080100; 0x40080100; 0x00000100; 0x02000000; 0x42080000;
   0x42080100; 0x00080100; 0x42000000; 0x42080100; 0x02080000; 0x00000000; 0x40080000; 0x42000000;
   0x00080100; 0x02000100; 0x40000100; 0x00080000; 0x00000000; 0x40080000; 0x02080100; 0x40000100];
  [0x20000010; 0x20400000; 0x00004000; 0x20404010; 0x20400000; 0x00000010; 0x20404010; 0x00400000;
   0x20004000; 0x00404010; 0x00400000; 0x20000010; 0x00400010; 0x20004000; 0x20000000; 0x00004010;
   0x00000000; 0x00400010; 0x20004010; 0x00004000; 0x00404000; 0x20004010; 0x00000010; 0x20400010;
   0x20400010; 0x00000000; 0x00404010; 0x20404000; 0x00004010; 0x00404000; 0x20404000; 0x20000000;
   0x20004000; 0x00000010; 0x20400010; 0x00404000; 0x20404010; 0x00400000; 0x00004010; 0x20000010;
   0x00400000; 0x20004000; 0x20000000; 0x00004010; 0x20000010; 0x20404010; 0x00404000; 0x20400000;
   0x00404010; 0x20404000; 0x00000000; 0x20400010; 0x00000010; 0x00004000; 0x20400000; 0x00404010;
   0x00004000; 0x00400010; 0x20004010; 0x00000000; 0x20404000; 0x20000000; 0x00400010; 0x20004010];
  [0x00200000; 0x04200002; 0x04000802; 0x00000000; 0x00000800; 0x04000802; 0x00200802; 0x04200800;
   0x04200802; 0x00200000; 0x00000000; 0x04000002; 0x00000002; 0x04000000; 0x04200002; 0x00000802;
   0x04000800; 0x00200802; 0x00200002; 0x04000800; 0x04000002; 0x04200000; 0x04200800; 0x00200002;
   0x04200000; 0x00000800; 0x00000802; 0x04200802; 0x00200800; 0x00000002; 0x04000000; 0x00200800;
   0x04000000; 0x00200800; 0x00200000; 0x04000802; 0x04000802; 0x04200002; 0x04200002; 0x00000002;
   0x00200002; 0x04000000; 0x04000800; 0x00200000; 0x04200800; 0x00000802; 0x00200802; 0x04200800;
   0x00000802; 0x04000002; 0x04200802; 0x04200000; 0x00200800; 0x00000000; 0x00000002; 0x04200802;
   0x00000000; 0x00200802; 0x04200000; 0x00000800; 0x04000002; 0x04000800; 0x00000800; 0x00200002];
  [0x10001040; 0x00001000; 0x00040000; 0x10041040; 0x10000000; 0x10001040; 0x00000040; 0x10000000;
   0x00040040; 0x10040000; 0x10041040; 0x00041000; 0x10041000; 0x00041040; 0x00001000; 0x00000040;
   0x10040000; 0x10000040; 0x10001000; 0x00001040; 0x00041000; 0x00040040; 0x10040040; 0x10041000;
   0x00001040; 0x00000000; 0x00000000; 0x10040040; 0x10000040; 0x10001000; 0x00041040; 0x00040000;
   0x00041040; 0x00040000; 0x10041000; 0x00001000; 0x00000040; 0x10040040; 0x00001000; 0x00041040;
   0x10001000; 0x00000040; 0x10000040; 0x10040000; 0x10040040; 0x10000000; 0x00040000; 0x10001040;
   0x00000000; 0x10041040; 0x00040040; 0x10000040; 0x10040000; 0x10001000; 0x10001040; 0x00000000;
   0x10041040; 0x00041000; 0x00041000; 0x00001040; 0x00001040; 0x00040040; 0x10000000; 0x10041000]].

(** The statements of IPERM and FPERM: a rotation of one of the words, and
    work = (left ^ right) & m; left ^= work; right ^= work. *)
Definition on_left (f : Z -> Z) (s : Z * Z) : Z * Z := (f (fst s), snd s).
Definition on_right (f : Z -> Z) (s : Z * Z) : Z * Z := (fst s, f (snd s)).
Definition mix (m : Z) (s : Z * Z) : Z * Z :=
  let work := Z.land (Z.lxor (fst s) (snd s)) m in (Z.lxor (fst s) work, Z.lxor (snd s) work).
Definition lrot (n x : Z) : Z := rotl 32 x n.
Definition rrot (n x : Z) : Z := rotr 32 x n.

(** IPERM (des.cpp:76-96) on (left, right), statements from the inside out *)
Definition iperm (s : Z * Z) : Z * Z :=
  on_left (lrot 1) (mix 0xaaaaaaaa
  (on_right (lrot 9) (mix 0x00ff00ff
  (on_right (rrot 6) (mix 0x33333333
  (on_right (rrot 18) (mix 0xffff0000
  (on_right (rrot 20) (mix 0xf0f0f0f0
  (on_right (lrot 4) s)))))))))).
(** FPERM (des.cpp:98-118) *)
Definition fperm (s : Z * Z) : Z * Z :=
  on_left (rrot 4) (mix 0xf0f0f0f0
  (on_left (lrot 20) (mix 0xffff0000
  (on_left (lrot 18) (mix 0x33333333
  (on_left (lrot 6) (mix 0x00ff00ff
  (on_left (rrot 9) (mix 0xaaaaaaaa
  (on_right (rrot 1) s)))))))))).

(** des.cpp:239-251 *)
Definition pc1 : list nat :=
  [57; 49; 41; 33; 25; 17; 9; 1; 58; 50; 42; 34; 26; 18; 10; 2; 59; 51; 43; 35; 27; 19; 11; 3; 60; 52; 44; 36;
   63; 55; 47; 39; 31; 23; 15; 7; 62; 54; 46; 38; 30; 22; 14; 6; 61; 53; 45; 37; 29; 21; 13; 5; 28; 20; 12; 4]%nat.
(** des.cpp:254-258 *)
Definition totrot : list nat := [1; 2; 4; 6; 8; 10; 12; 14; 15; 17; 19; 21; 23; 25; 27; 28]%nat.
(** des.cpp:261-272 *)
Definition pc2 : list nat :=
  [14; 17; 11; 24; 1; 5; 3; 28; 15; 6; 21; 10; 23; 19; 12; 4; 26; 8; 16; 7; 27; 20; 13; 2;
   41; 52; 31; 37; 47; 55; 30; 40; 51; 45; 33; 48; 44; 49; 39; 56; 34; 53; 46; 42; 50; 36; 29; 32]%nat.
(** des.cpp:277-281 *)
Definition bytebit : list Z := [128; 64; 32; 16; 8; 4; 2; 1].

(** RawDES::RawSetKey (des.cpp:284-336): pc1m, then pcr and ks of iteration [i],
    then k[2i] and k[2i+1]; the two words of an iteration are a pair here. *)
Definition pc1m (key : list Z) : list Z :=
  map (fun p => let l := (p - 1)%nat in
                if Z.land (nth (l / 8)%nat key 0) (nth (l mod 8)%nat bytebit 0) =? 0 then 0 else 1) pc1.
Definition pcr (m : list Z) (i : nat) : list Z :=
  map (fun j => let l := (j + nth i totrot 0)%nat in
                nth (if (l <? (if (j <? 28)%nat then 28 else 56))%nat then l else l - 28)%nat m 0) (seq 0 56).
Definition ks (r : list Z) : list Z :=
  fold_left (fun ks j =>
    if nth (nth j pc2 0 - 1)%nat r 0 =? 0 then ks
    else upd (j / 6)%nat (Z.lor (nth (j / 6)%nat ks 0) (Z.shiftr (nth (j mod 6)%nat bytebit 0) 2)) ks)
    (seq 0 48) (repeat 0 8).
Definition four (a b c d : Z) : Z := Z.lor (Z.lor (Z.lor (wshl 32 a 24) (wshl 32 b 16)) (wshl 32 c 8)) d.
Definition round_key (key : list Z) (i : nat) : Z * Z :=
  let s := ks (pcr (pc1m key) i) in
  (four (nth 0 s 0) (nth 2 s 0) (nth 4 s 0) (nth 6 s 0), four (nth 1 s 0) (nth 3 s 0) (nth 5 s 0) (nth 7 s 0)).
(** The loop at des.cpp:330-335 exchanges pair i/2 with pair 15-i/2 for even i below 16. *)
Definition raw_set_key (decrypt : bool) (key : list Z) : list (Z * Z) :=
  let k := map (round_key key) (seq 0 16) in
  if decrypt
  then fold_left (fun k i => upd i (nth (15 - i) k (0, 0)) (upd (15 - i) (nth i k (0, 0)) k)) (seq 0 8) k
  else k.

(** RawDES::RawProcessBlock (des.cpp:338-369): what is added to one word, from the
    other one and two words of the key. *)
Definition sp (i : nat) (x : Z) : Z := nth (Z.to_nat (Z.land x 0x3f)) (nth i Spbox []) 0.
Definition half (x : Z) (k : Z * Z) (y : Z) : Z :=
  let work := Z.lxor (rotr 32 x 4) (fst k) in
  let y := Z.lxor y (Z.lxor (Z.lxor (Z.lxor (sp 6 work) (sp 4 (Z.shiftr work 8))) (sp 2 (Z.shiftr work 16))) (sp 0 (Z.shiftr work 24))) in
  let work := Z.lxor x (snd k) in
  Z.lxor y (Z.lxor (Z.lxor (Z.lxor (sp 7 work) (sp 5 (Z.shiftr work 8))) (sp 3 (Z.shiftr work 16))) (sp 1 (Z.shiftr work 24))).
Definition raw_process (k : list (Z * Z)) (s : Z * Z) : Z * Z :=
  fold_left (fun '(l, r) i =>
    let l := half r (nth (2 * i) k (0, 0)) l in
    let r := half l (nth (2 * i + 1) k (0, 0)) r in (l, r)) (seq 0 8) s.

Definition swap (s : Z * Z) : Z * Z := (snd s, fst s).
(** The frame of the ProcessAndXorBlock of DES, DES_EDE2 and DES_EDE3: Get (l)(r), IPERM, [f], FPERM,
    Put (r)(l). *)
Definition des_frame (f : Z * Z -> Z * Z) (ws : list Z) : option (list Z) :=
  match ws with
  | [l; r] => let s := fperm (f (iperm (l, r))) in Some [snd s; fst s]
  | _ => None
  end.
(** DES::Base (des.cpp:120-125, 436-444) *)
Definition des (decrypt : bool) (key : list Z) : list Z -> option (list Z) -> option (list Z) :=
  process true 4 2 (des_frame (raw_process (raw_set_key decrypt key))).
(** DES_EDE2::Base (des.cpp:371-389); RawProcessBlock(r, l) works on the words exchanged. *)
Definition des_ede2 (decrypt : bool) (key : list Z) : list Z -> option (list Z) -> option (list Z) :=
  let d1 := raw_set_key decrypt key in
  let d2 := raw_set_key (negb decrypt) (skipn 8 key) in
  process true 4 2 (des_frame (fun s => raw_process d1 (swap (raw_process d2 (swap (raw_process d1 s)))))).
(** DES_EDE3::Base (des.cpp:391-410) *)
Definition des_ede3 (decrypt : bool) (key : list Z) : list Z -> option (list Z) -> option (list Z) :=
  let d1 := raw_set_key decrypt (skipn (if decrypt then 16 else 0) key) in
  let d2 := raw_set_key (negb decrypt) (skipn 8 key) in
  let d3 := raw_set_key decrypt (skipn (if decrypt then 0 else 16) key) in
  process true 4 2 (des_frame (fun s => raw_process d3 (swap (raw_process d2 (swap (raw_process d1 s)))))).
(** DES_XEX3::Base (des.cpp:446-463). [mask] is what xorBlock points to before the call; [Over] says
    that it is outBlock itself, as in the in-place use of CTR_ModePolicy::OperateKeystream
    (modes.cpp:159): outBlock holds inBlock ^ m_x1 when the mask is read. *)
Inductive xor_block : Type := NoMask | Mask (m : list Z) | Over.
Definition des_xex3_at (decrypt : bool) (key : list Z) (inb : list Z) (x : xor_block) : option (list Z) :=
  let x1 := firstn 8 (skipn (if decrypt then 16 else 0) key) in
  let x3 := firstn 8 (skipn (if decrypt then 0 else 16) key) in
  let out := xorl inb x1 in
  match des decrypt (skipn 8 key) out (match x with NoMask => None | Mask m => Some m | Over => Some out end) with
  | Some out => Some (xorl out x3)
  | None => None
  end.
Definition des_xex3 (decrypt : bool) (key inb : list Z) (mask : option (list Z)) : option (list Z) :=
  des_xex3_at decrypt key inb (match mask with Some m => Mask m | None => NoMask end).

(** CheckParity, CheckKeyParityBits, CorrectKeyParityBits (des.cpp:414-433) *)
Definition check_parity (b : Z) : bool :=
  let a := Z.lxor b (Z.shiftr b 4) in
  Z.land (Z.lxor (Z.lxor (Z.lxor a (Z.shiftr a 1)) (Z.shiftr a 2)) (Z.shiftr a 3)) 1 =? 1.
Definition check_key_parity (key : list Z) : bool := forallb check_parity (firstn 8 key).
Definition correct_key_parity (key : list Z) : list Z :=
  map (fun b => if check_parity b then b else Z.lxor b 1) (firstn 8 key) ++ skipn 8 key.
