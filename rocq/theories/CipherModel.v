(** Block ciphers as code: TEA, XTEA, BTEA (tea.cpp), RC5 (rc5.cpp), RC6 (rc6.cpp), SPECK
    (speck.cpp), SIMON (simon.cpp) and Threefish (threefish.cpp), each with its key schedule and the
    byte order of its blocks. A machine word of [w] bits is a Z in [0, 2^w). [ProcessAndXorBlock]
    takes an optional mask: [None] is a null xorBlock. The SIMD block functions are not modelled. *)
From Coq Require Import ZArith List Bool Arith.
From Verif Require Import Base.
Import ListNotations.
Local Open Scope Z_scope.

(* ------------------------------------------------------------------ *)
(** ** Words *)

(** C++ unsigned arithmetic on [w] bits: +, -, *, <<. *)
Definition wadd (w x y : Z) : Z := (x + y) mod 2 ^ w.
Definition wsub (w x y : Z) : Z := (x - y) mod 2 ^ w.
Definition wmul (w x y : Z) : Z := (x * y) mod 2 ^ w.
Definition wshl (w x n : Z) : Z := Z.shiftl x n mod 2 ^ w.

(** misc.h:1757-1767 rotlConstant, 1894-1899 rotlMod: T((x<<(y&MASK))|(x>>(-y&MASK))). For the
    constant form R < THIS_SIZE, so y&MASK = R. *)
Definition rotl (w x y : Z) : Z :=
  Z.lor (wshl w x (Z.land y (w - 1))) (Z.shiftr x (Z.land (- y) (w - 1))).
(** misc.h:1783-1793 rotrConstant, 1910-1915 rotrMod: T((x>>(y&MASK))|(x<<(-y&MASK))). *)
Definition rotr (w x y : Z) : Z :=
  Z.lor (Z.shiftr x (Z.land y (w - 1))) (wshl w x (Z.land (- y) (w - 1))).

(** misc.h GetWord/PutWord in the given byte order; [big] is BIG_ENDIAN_ORDER. *)
Definition word_of (big : bool) (s : list Z) : Z := if big then be_val s else le_val s.
Definition word_to (big : bool) (sz : nat) (x : Z) : list Z := if big then be_bytes sz x else le_bytes sz x.

(** misc.h:2974-2998 GetBlock: [n] successive words of [sz] bytes. *)
Fixpoint get_block (big : bool) (sz n : nat) (s : list Z) : list Z :=
  match n with
  | O => []
  | S m => word_of big (firstn sz s) :: get_block big sz m (skipn sz s)
  end.

(** misc.h:3012-3040 PutBlock: each word is written in turn, exclusive-ored with the mask's bytes at
    the same place when there is a mask. *)
Definition put_block (big : bool) (sz : nat) (ws : list Z) (mask : option (list Z)) : list Z :=
  let out := flat_map (word_to big sz) ws in
  match mask with None => out | Some m => xorl out m end.

(** misc.h:2500-2507 GetUserKey: copy the key, fill the rest of [n] words with zero bytes, read the
    words in the given order. *)
Definition get_user_key (big : bool) (sz n : nat) (key : list Z) : list Z :=
  get_block big sz n (key ++ repeat 0 (n * sz - length key)).

(** The frame every ProcessAndXorBlock below shares: read the words, transform them, write them.
    [None]: a loop of the transformation ran out of fuel. *)
Definition process (big : bool) (sz n : nat) (f : list Z -> option (list Z))
  (inb : list Z) (mask : option (list Z)) : option (list Z) :=
  match f (get_block big sz n inb) with
  | Some ws => Some (put_block big sz ws mask)
  | None => None
  end.

(* ------------------------------------------------------------------ *)
(** ** TEA and XTEA *)

(** tea.cpp:16 *)
Definition DELTA : Z := 0x9e3779b9.

(** tea.cpp:22-28 (and 62-68): the four key words and m_limit = rounds * DELTA. *)
Definition tea_key (key : list Z) : list Z := get_user_key true 4 4 key.
Definition tea_limit (rounds : Z) : Z := wmul 32 rounds DELTA.
Definition kat (k : list Z) (i : nat) : Z := nth i k 0.

(** tea.cpp:39, 40: ((z << 4) + k0) ^ (z + sum) ^ ((z >> 5) + k1) *)
Definition tea_f (z k0 sum k1 : Z) : Z :=
  Z.lxor (Z.lxor (wadd 32 (wshl 32 z 4) k0) (wadd 32 z sum)) (wadd 32 (Z.shiftr z 5) k1).

(** tea.cpp:36-41 *)
Fixpoint tea_enc_loop (fuel : nat) (k : list Z) (limit sum y z : Z) : option (Z * Z) :=
  if sum =? limit then Some (y, z)
  else match fuel with
       | O => None
       | S f =>
           let sum := wadd 32 sum DELTA in
           let y := wadd 32 y (tea_f z (kat k 0) sum (kat k 1)) in
           let z := wadd 32 z (tea_f y (kat k 2) sum (kat k 3)) in
           tea_enc_loop f k limit sum y z
       end.
(** tea.cpp:52-57 *)
Fixpoint tea_dec_loop (fuel : nat) (k : list Z) (sum y z : Z) : option (Z * Z) :=
  if sum =? 0 then Some (y, z)
  else match fuel with
       | O => None
       | S f =>
           let z := wsub 32 z (tea_f y (kat k 2) sum (kat k 3)) in
           let y := wsub 32 y (tea_f z (kat k 0) sum (kat k 1)) in
           let sum := wsub 32 sum DELTA in
           tea_dec_loop f k sum y z
       end.

(** A two-word transformation as a function of the list of words. *)
Definition on_pair (f : Z -> Z -> option (Z * Z)) (ws : list Z) : option (list Z) :=
  match f (nth 0 ws 0) (nth 1 ws 0) with
  | Some (y, z) => Some [y; z]
  | None => None
  end.

(** tea.cpp:30-44, 46-60. The fuel is the number of rounds; that it suffices is proved. *)
Definition tea_enc (key : list Z) (rounds : Z) : list Z -> option (list Z) -> option (list Z) :=
  process true 4 2 (on_pair (tea_enc_loop (Z.to_nat rounds) (tea_key key) (tea_limit rounds) 0)).
Definition tea_dec (key : list Z) (rounds : Z) : list Z -> option (list Z) -> option (list Z) :=
  process true 4 2 (on_pair (tea_dec_loop (Z.to_nat rounds) (tea_key key) (tea_limit rounds))).

(** tea.cpp:78, 80: ((z<<4 ^ z>>5) + z) ^ (sum + key word) *)
Definition xtea_f (z sum kw : Z) : Z :=
  Z.lxor (wadd 32 (Z.lxor (wshl 32 z 4) (Z.shiftr z 5)) z) (wadd 32 sum kw).
(** m_k[sum&3] and m_k[sum>>11 & 3] *)
Definition xtea_k0 (k : list Z) (sum : Z) : Z := kat k (Z.to_nat (Z.land sum 3)).
Definition xtea_k1 (k : list Z) (sum : Z) : Z := kat k (Z.to_nat (Z.land (Z.shiftr sum 11) 3)).

(** tea.cpp:76-81 *)
Fixpoint xtea_enc_loop (fuel : nat) (k : list Z) (limit sum y z : Z) : option (Z * Z) :=
  if sum =? limit then Some (y, z)
  else match fuel with
       | O => None
       | S f =>
           let y := wadd 32 y (xtea_f z sum (xtea_k0 k sum)) in
           let sum := wadd 32 sum DELTA in
           let z := wadd 32 z (xtea_f y sum (xtea_k1 k sum)) in
           xtea_enc_loop f k limit sum y z
       end.
(** tea.cpp:92-97 *)
Fixpoint xtea_dec_loop (fuel : nat) (k : list Z) (sum y z : Z) : option (Z * Z) :=
  if sum =? 0 then Some (y, z)
  else match fuel with
       | O => None
       | S f =>
           let z := wsub 32 z (xtea_f y sum (xtea_k1 k sum)) in
           let sum := wsub 32 sum DELTA in
           let y := wsub 32 y (xtea_f z sum (xtea_k0 k sum)) in
           xtea_dec_loop f k sum y z
       end.
(** tea.cpp:70-84, 86-100 *)
Definition xtea_enc (key : list Z) (rounds : Z) : list Z -> option (list Z) -> option (list Z) :=
  process true 4 2 (on_pair (xtea_enc_loop (Z.to_nat rounds) (tea_key key) (tea_limit rounds) 0)).
Definition xtea_dec (key : list Z) (rounds : Z) : list Z -> option (list Z) -> option (list Z) :=
  process true 4 2 (on_pair (xtea_dec_loop (Z.to_nat rounds) (tea_key key) (tea_limit rounds))).

(* ------------------------------------------------------------------ *)
(** ** BTEA *)

(** tea.cpp:102, the macro MX *)
Definition btea_mx (k : list Z) (sum e : Z) (p : nat) (y z : Z) : Z :=
  Z.lxor (wadd 32 (Z.lxor (Z.shiftr z 5) (wshl 32 y 2)) (Z.lxor (Z.shiftr y 3) (wshl 32 z 4)))
         (wadd 32 (Z.lxor sum y)
                  (Z.lxor (kat k (Z.to_nat (Z.lxor (Z.land (Z.of_nat p) 3) e))) z)).
(** tea.cpp:121, 150: e = sum>>2 & 3 *)
Definition btea_e (sum : Z) : Z := Z.land (Z.shiftr sum 2) 3.

(** tea.cpp:122-126: for (p = 0; p < n-1; p++) {y = v[p+1]; z = v[p] += MX;}, with [m] steps left. *)
Fixpoint btea_up (k : list Z) (sum : Z) (m p : nat) (v : list Z) (z : Z) : list Z * Z :=
  match m with
  | O => (v, z)
  | S m' =>
      let y := nth (p + 1) v 0 in
      let z := wadd 32 (nth p v 0) (btea_mx k sum (btea_e sum) p y z) in
      btea_up k sum m' (p + 1) (upd p z v) z
  end.
(** tea.cpp:118-129 *)
Fixpoint btea_enc_loop (q : nat) (k : list Z) (n : nat) (sum : Z) (v : list Z) (z : Z) : list Z :=
  match q with
  | O => v
  | S q' =>
      let sum := wadd 32 sum DELTA in
      let (v, z) := btea_up k sum (n - 1) 0 v z in
      let y := nth 0 v 0 in
      let z := wadd 32 (nth (n - 1) v 0) (btea_mx k sum (btea_e sum) (n - 1) y z) in
      btea_enc_loop q' k n sum (upd (n - 1) z v) z
  end.
(** tea.cpp:151-155: for (p = n-1; p > 0; p--) {z = v[p-1]; y = v[p] -= MX;} *)
Fixpoint btea_down (k : list Z) (sum : Z) (p : nat) (v : list Z) (y : Z) : list Z * Z :=
  match p with
  | O => (v, y)
  | S p' =>
      let z := nth p' v 0 in
      let y := wsub 32 (nth p v 0) (btea_mx k sum (btea_e sum) p y z) in
      btea_down k sum p' (upd p y v) y
  end.
(** tea.cpp:148-160 *)
Fixpoint btea_dec_loop (fuel : nat) (k : list Z) (n : nat) (sum : Z) (v : list Z) (y : Z) : option (list Z) :=
  if sum =? 0 then Some v
  else match fuel with
       | O => None
       | S f =>
           let (v, y) := btea_down k sum (n - 1) v y in
           let z := nth (n - 1) v 0 in
           let y := wsub 32 (nth 0 v 0) (btea_mx k sum (btea_e sum) 0 y z) in
           btea_dec_loop f k n (wsub 32 sum DELTA) (upd 0 y v) y
       end.
(** tea.cpp:115, 145: q = 6+52/n *)
Definition btea_q (n : nat) : nat := (6 + 52 / n)%nat.

(** tea.cpp:104-132, 134-163 with m_blockSize = 4n. The mask is not used (CRYPTOPP_UNUSED(xorBlock)).
    A block size that is no multiple of four is not modelled. *)
Definition btea_enc (key : list Z) (n : nat) (inb : list Z) (mask : option (list Z)) : option (list Z) :=
  process true 4 n (fun v => Some (btea_enc_loop (btea_q n) (tea_key key) n 0 v (nth (n - 1) v 0))) inb None.
Definition btea_dec (key : list Z) (n : nat) (inb : list Z) (mask : option (list Z)) : option (list Z) :=
  process true 4 n (fun v => btea_dec_loop (btea_q n) (tea_key key) n
                               (wmul 32 (Z.of_nat (btea_q n)) DELTA) v (nth 0 v 0)) inb None.

(* ------------------------------------------------------------------ *)
(** ** RC5 and RC6 *)

(** rc5.cpp:26-28, rc6.cpp:27-29: sTable[0] = MAGIC_P, sTable[j] = sTable[j-1] + MAGIC_Q. *)
Fixpoint rc_table (n : nat) (x : Z) : list Z :=
  match n with
  | O => []
  | S m => x :: rc_table m (wadd 32 x 0x9e3779b9)
  end.
(** rc5.cpp:33-37, rc6.cpp:34-38, from h on with [m] steps left. *)
Fixpoint rc_mix (m h : nat) (st l : list Z) (a b : Z) : list Z :=
  match m with
  | O => st
  | S m' =>
      let i := (h mod length st)%nat in
      let j := (h mod length l)%nat in
      let a := rotl 32 (wadd 32 (wadd 32 (nth i st 0) a) b) 3 in
      let b := rotl 32 (wadd 32 (wadd 32 (nth j l 0) a) b) (wadd 32 a b) in
      rc_mix m' (S h) (upd i a st) (upd j b l) a b
  end.
(** rc5.cpp:10-38 with size = 2(r+1), rc6.cpp:11-39 with size = 2(r+2). The unsigned products of the
    sizes are taken without wrap-around: round counts near 2^31 are not modelled. *)
Definition rc_key (size : nat) (key : list Z) : list Z :=
  let c := Nat.max ((length key + 4 - 1) / 4) 1 in
  rc_mix (3 * Nat.max size c) 0 (rc_table size 0xb7e15163) (get_user_key false 4 c key) 0 0.

(** rc5.cpp:52-56, round i of [r] *)
Definition rc5_round (s : list Z) (ab : Z * Z) (i : nat) : Z * Z :=
  let (a, b) := ab in
  let a := wadd 32 (rotl 32 (Z.lxor a b) b) (nth (2 + (2 * i + 0)) s 0) in
  let b := wadd 32 (rotl 32 (Z.lxor a b) a) (nth (2 + (2 * i + 1)) s 0) in
  (a, b).
(** rc5.cpp:42-59 *)
Definition rc5_enc_words (s : list Z) (r : nat) (a b : Z) : option (Z * Z) :=
  let a := wadd 32 a (nth 0 s 0) in
  let b := wadd 32 b (nth 1 s 0) in
  Some (fold_left (rc5_round s) (seq 0 r) (a, b)).
(** rc5.cpp:68-73: in step i the pointer stands at sTable.end() - 2(i+1). *)
Definition rc5_unround (s : list Z) (ab : Z * Z) (i : nat) : Z * Z :=
  let (a, b) := ab in
  let p := (length s - 2 * (i + 1))%nat in
  let b := Z.lxor (rotr 32 (wsub 32 b (nth (p + 1) s 0)) a) a in
  let a := Z.lxor (rotr 32 (wsub 32 a (nth (p + 0) s 0)) b) b in
  (a, b).
(** rc5.cpp:61-78 *)
Definition rc5_dec_words (s : list Z) (r : nat) (a b : Z) : option (Z * Z) :=
  let (a, b) := fold_left (rc5_unround s) (seq 0 r) (a, b) in
  let b := wsub 32 b (nth 1 s 0) in
  let a := wsub 32 a (nth 0 s 0) in
  Some (a, b).
Definition rc5_enc (key : list Z) (r : nat) : list Z -> option (list Z) -> option (list Z) :=
  process false 4 2 (on_pair (rc5_enc_words (rc_key (2 * (r + 1)) key) r)).
Definition rc5_dec (key : list Z) (r : nat) : list Z -> option (list Z) -> option (list Z) :=
  process false 4 2 (on_pair (rc5_dec_words (rc_key (2 * (r + 1)) key) r)).

(** A block of four words. *)
Definition quad : Type := (Z * Z * Z * Z)%type.
Definition on_quad (f : quad -> quad) (ws : list Z) : option (list Z) :=
  match f (nth 0 ws 0, nth 1 ws 0, nth 2 ws 0, nth 3 ws 0) with
  | (a, b, c, d) => Some [a; b; c; d]
  end.
(** rc6.cpp:55: rotlConstant<5>(b*(2*b+1)) *)
Definition rc6_t (b : Z) : Z := rotl 32 (wmul 32 b (wadd 32 (wmul 32 2 b) 1)) 5.
(** rc6.cpp:53-61, round i; the pointer stands at 2 + 2i. *)
Definition rc6_round (s : list Z) (q : quad) (i : nat) : quad :=
  let '(a, b, c, d) := q in
  let t := rc6_t b in
  let u := rc6_t d in
  let a := wadd 32 (rotl 32 (Z.lxor a t) u) (nth (2 + 2 * i) s 0) in
  let c := wadd 32 (rotl 32 (Z.lxor c u) t) (nth (2 + 2 * i + 1) s 0) in
  (b, c, d, a).
(** rc6.cpp:43-67 *)
Definition rc6_enc_words (s : list Z) (r : nat) (q : quad) : quad :=
  let '(a, b, c, d) := q in
  let b := wadd 32 b (nth 0 s 0) in
  let d := wadd 32 d (nth 1 s 0) in
  let '(a, b, c, d) := fold_left (rc6_round s) (seq 0 r) (a, b, c, d) in
  (wadd 32 a (nth (2 + 2 * r) s 0), b, wadd 32 c (nth (2 + 2 * r + 1) s 0), d).
(** rc6.cpp:80-88, step i; the pointer stands at sTable.end() - 2 - 2(i+1). *)
Definition rc6_unround (s : list Z) (q : quad) (i : nat) : quad :=
  let '(a, b, c, d) := q in
  let p := (length s - 2 - 2 * (i + 1))%nat in
  let '(a, b, c, d) := (d, a, b, c) in
  let u := rc6_t d in
  let t := rc6_t b in
  let c := Z.lxor (rotr 32 (wsub 32 c (nth (p + 1) s 0)) t) u in
  let a := Z.lxor (rotr 32 (wsub 32 a (nth p s 0)) u) t in
  (a, b, c, d).
(** rc6.cpp:69-94 *)
Definition rc6_dec_words (s : list Z) (r : nat) (q : quad) : quad :=
  let '(a, b, c, d) := q in
  let p := (length s - 2)%nat in
  let c := wsub 32 c (nth (p + 1) s 0) in
  let a := wsub 32 a (nth p s 0) in
  let '(a, b, c, d) := fold_left (rc6_unround s) (seq 0 r) (a, b, c, d) in
  (a, wsub 32 b (nth 0 s 0), c, wsub 32 d (nth 1 s 0)).
Definition rc6_enc (key : list Z) (r : nat) : list Z -> option (list Z) -> option (list Z) :=
  process false 4 4 (on_quad (rc6_enc_words (rc_key (2 * (r + 2)) key) r)).
Definition rc6_dec (key : list Z) (r : nat) : list Z -> option (list Z) -> option (list Z) :=
  process false 4 4 (on_quad (rc6_dec_words (rc_key (2 * (r + 2)) key) r)).

(* ------------------------------------------------------------------ *)
(** ** SPECK *)

(** speck.cpp:30-37 *)
Definition TF83 (w k : Z) (xy : Z * Z) : Z * Z :=
  let (x, y) := xy in
  let x := rotr w x 8 in
  let x := wadd w x y in
  let x := Z.lxor x k in
  let y := rotl w y 3 in
  let y := Z.lxor y x in
  (x, y).
(** speck.cpp:46-53 *)
Definition TR83 (w k : Z) (xy : Z * Z) : Z * Z :=
  let (x, y) := xy in
  let y := Z.lxor y x in
  let y := rotr w y 3 in
  let x := Z.lxor x k in
  let x := wsub w x y in
  let x := rotl w x 8 in
  (x, y).
(** speck.cpp:61-69, 77-85: the loops over i = 0..R-1 and i = R-1..0. *)
Definition speck_encrypt (w : Z) (R : nat) (k : list Z) (p : Z * Z) : Z * Z :=
  fold_left (fun c i => TF83 w (nth i k 0) c) (seq 0 R) p.
Definition speck_decrypt (w : Z) (R : nat) (k : list Z) (c : Z * Z) : Z * Z :=
  fold_left (fun p i => TR83 w (nth i k 0) p) (rev (seq 0 R)) c.

(** speck.cpp:93-105, from i on with [m] steps of the loop left; the list is key[i..R-1]. *)
Fixpoint speck_expand2 (w : Z) (m i : nat) (B A : Z) : list Z :=
  match m with
  | O => [A]
  | S m' => let (B', A') := TF83 w (Z.of_nat i) (B, A) in A :: speck_expand2 w m' (S i) B' A'
  end.
(** speck.cpp:113-132; [odd] is R%2 == 1. *)
Fixpoint speck_expand3 (w : Z) (odd : bool) (blocks i : nat) (C B A : Z) : list Z :=
  match blocks with
  | O => if odd then [A] else []
  | S m =>
      let (B', A1) := TF83 w (Z.of_nat (i + 0)) (B, A) in
      let (C', A2) := TF83 w (Z.of_nat (i + 1)) (C, A1) in
      A :: A1 :: speck_expand3 w odd m (i + 2) C' B' A2
  end.
(** speck.cpp:140-165; [rest] is R%3. *)
Fixpoint speck_expand4 (w : Z) (R rest blocks i : nat) (D C B A : Z) : list Z :=
  match blocks with
  | O =>
      match rest with
      | 1%nat => [A]
      | 2%nat => let (_, A1) := TF83 w (Z.of_nat (R - 2)) (B, A) in [A; A1]
      | _ => []
      end
  | S m =>
      let (B', A1) := TF83 w (Z.of_nat (i + 0)) (B, A) in
      let (C', A2) := TF83 w (Z.of_nat (i + 1)) (C, A1) in
      let (D', A3) := TF83 w (Z.of_nat (i + 2)) (D, A2) in
      A :: A1 :: A2 :: speck_expand4 w R rest m (i + 3) D' C' B' A3
  end.
(** The key words: kblk(m_wspace[n-1])...(m_wspace[0]), so that m_wspace is the reverse of the words
    in the order of the bytes (speck.cpp:233, 238, 350-360, simon.cpp:251, 256, 368-378). *)
Definition wspace (sz n : nat) (key : list Z) : list Z := rev (get_block false sz n key).

(** speck.cpp:215-244 and 335-365: number of rounds and round keys by key length; the assert of the
    default branch is [None]. *)
Definition speck64_key (key : list Z) : option (nat * list Z) :=
  match length key with
  | 12%nat => let k := wspace 4 3 key in
      Some (26%nat, speck_expand3 32 false 13 0 (nth 0 k 0) (nth 1 k 0) (nth 2 k 0))
  | 16%nat => let k := wspace 4 4 key in
      Some (27%nat, speck_expand4 32 27 0 9 0 (nth 0 k 0) (nth 1 k 0) (nth 2 k 0) (nth 3 k 0))
  | _ => None
  end.
Definition speck128_key (key : list Z) : option (nat * list Z) :=
  match length key with
  | 16%nat => let k := wspace 8 2 key in
      Some (32%nat, speck_expand2 64 31 0 (nth 0 k 0) (nth 1 k 0))
  | 24%nat => let k := wspace 8 3 key in
      Some (33%nat, speck_expand3 64 true 16 0 (nth 0 k 0) (nth 1 k 0) (nth 2 k 0))
  | 32%nat => let k := wspace 8 4 key in
      Some (34%nat, speck_expand4 64 34 1 11 0 (nth 0 k 0) (nth 1 k 0) (nth 2 k 0) (nth 3 k 0))
  | _ => None
  end.
(** speck.cpp:250, 266 and alike (also simon.cpp): iblk(m_wspace[1])(m_wspace[0]) reads the second
    array entry first, oblk(m_wspace[3])(m_wspace[2]) writes it first. *)
Definition swapped (f : Z * Z -> Z * Z) (a b : Z) : option (Z * Z) :=
  let (x, y) := f (b, a) in Some (y, x).
(** speck.cpp:246-290 and 391-441: the function of the key's number of rounds. *)
Definition keyed (w : Z) (sz : nat) (f : Z -> nat -> list Z -> Z * Z -> Z * Z)
  (ks : option (nat * list Z)) (inb : list Z) (mask : option (list Z)) : option (list Z) :=
  match ks with
  | Some (R, k) => process false sz 2 (on_pair (swapped (f w R k))) inb mask
  | None => None
  end.
Definition speck64_enc (key : list Z) := keyed 32 4 speck_encrypt (speck64_key key).
Definition speck64_dec (key : list Z) := keyed 32 4 speck_decrypt (speck64_key key).
Definition speck128_enc (key : list Z) := keyed 64 8 speck_encrypt (speck128_key key).
Definition speck128_dec (key : list Z) := keyed 64 8 speck_decrypt (speck128_key key).

(* ------------------------------------------------------------------ *)
(** ** SIMON *)

(** simon.cpp:26-30 *)
Definition simon_f (w v : Z) : Z := Z.lxor (Z.land (rotl w v 1) (rotl w v 8)) (rotl w v 2).
(** simon.cpp:38-43 *)
Definition simon_R2 (w k l : Z) (xy : Z * Z) : Z * Z :=
  let (x, y) := xy in
  let y := Z.lxor y (simon_f w x) in
  let y := Z.lxor y k in
  let x := Z.lxor x (simon_f w y) in
  let x := Z.lxor x l in
  (x, y).
(** simon.cpp:51-64: i = 0, 2, ... while i < R-1; then the extra round of an odd R. *)
Definition simon_encrypt (w : Z) (R : nat) (k : list Z) (p : Z * Z) : Z * Z :=
  let c := fold_left (fun c j => simon_R2 w (nth (2 * j) k 0) (nth (2 * j + 1) k 0) c)
                     (seq 0 (R / 2)) p in
  if Nat.odd R
  then let (c0, c1) := c in
       let c1 := Z.lxor c1 (simon_f w c0) in
       let c1 := Z.lxor c1 (nth (R - 1) k 0) in
       (c1, c0)
  else c.
(** simon.cpp:72-87: i = rounds-2, rounds-4, ... down to 0; R2 with the arguments exchanged. *)
Definition simon_unR2 (w k l : Z) (p : Z * Z) : Z * Z :=
  let (p0, p1) := p in
  let (x, y) := simon_R2 w k l (p1, p0) in (y, x).
Definition simon_decrypt (w : Z) (R : nat) (k : list Z) (c : Z * Z) : Z * Z :=
  let p := if Nat.odd R
           then let (c0, c1) := c in
                let (p0, p1) := (c1, c0) in
                let p1 := Z.lxor p1 (nth (R - 1) k 0) in
                let p1 := Z.lxor p1 (simon_f w p0) in
                (p0, p1)
           else c in
  let rounds := if Nat.odd R then (R - 1)%nat else R in
  fold_left (fun p j => simon_unR2 w (nth (2 * j + 1) k 0) (nth (2 * j) k 0) p)
            (rev (seq 0 (rounds / 2))) p.

(** simon.cpp:100-105, 139-143, 160-164: key[i] = c ^ b ^ key[i-m] ^ rotr3(key[i-1]) ^ rotr4(key[i-1]). *)
Definition simon_next (w : Z) (m : nat) (c b : Z) (key : list Z) : list Z :=
  let i := length key in
  let k1 := nth (i - 1) key 0 in
  key ++ [Z.lxor (Z.lxor (Z.lxor (Z.lxor c b) (nth (i - m) key 0)) (rotr w k1 3)) (rotr w k1 4)].
(** simon.cpp:119-125, 181-190: four key words. *)
Definition simon_next4 (w : Z) (c b : Z) (key : list Z) : list Z :=
  let i := length key in
  let k1 := nth (i - 1) key 0 in
  let k3 := nth (i - 3) key 0 in
  key ++ [Z.lxor (Z.lxor (Z.lxor (Z.lxor (Z.lxor (Z.lxor c b) (nth (i - 4) key 0)) (rotr w k1 3)) k3)
                         (rotr w k1 4)) (rotr w k3 1)].
(** The loop: [steps] keys, the constant's low bit each time, then z >>= 1. *)
Fixpoint simon_expand (next : Z -> list Z -> list Z) (steps : nat) (z : Z) (key : list Z) : list Z :=
  match steps with
  | O => key
  | S m => simon_expand next m (Z.shiftr z 1) (next (Z.land z 1) key)
  end.
(** simon.cpp:94-106, 113-126 *)
Definition simon64_key3 (k : list Z) : list Z :=
  simon_expand (simon_next 32 3 0xfffffffc) 39 0x7369f885192c0ef5 [nth 2 k 0; nth 1 k 0; nth 0 k 0].
Definition simon64_key4 (k : list Z) : list Z :=
  simon_expand (simon_next4 32 0xfffffffc) 40 0xfc2ce51207a635db [nth 3 k 0; nth 2 k 0; nth 1 k 0; nth 0 k 0].
(** simon.cpp:133-147, 154-168, 175-191 *)
Definition simon128_key2 (k : list Z) : list Z :=
  let next := simon_next 64 2 0xfffffffffffffffc in
  let key := simon_expand next 64 0x7369f885192c0ef5 [nth 1 k 0; nth 0 k 0] in
  next 0 (next 1 key).
Definition simon128_key3 (k : list Z) : list Z :=
  let next := simon_next 64 3 0xfffffffffffffffc in
  let key := simon_expand next 64 0xfc2ce51207a635db [nth 2 k 0; nth 1 k 0; nth 0 k 0] in
  next 1 (next 0 key).
Definition simon128_key4 (k : list Z) : list Z :=
  let next := simon_next4 64 0xfffffffffffffffc in
  let key := simon_expand next 64 0xfdc94c3a046d678b [nth 3 k 0; nth 2 k 0; nth 1 k 0; nth 0 k 0] in
  next 0 (next 0 (next 1 (next 0 key))).
(** simon.cpp:233-262, 350-383 *)
Definition simon64_key (key : list Z) : option (nat * list Z) :=
  match length key with
  | 12%nat => Some (42%nat, simon64_key3 (wspace 4 3 key))
  | 16%nat => Some (44%nat, simon64_key4 (wspace 4 4 key))
  | _ => None
  end.
Definition simon128_key (key : list Z) : option (nat * list Z) :=
  match length key with
  | 16%nat => Some (68%nat, simon128_key2 (wspace 8 2 key))
  | 24%nat => Some (69%nat, simon128_key3 (wspace 8 3 key))
  | 32%nat => Some (72%nat, simon128_key4 (wspace 8 4 key))
  | _ => None
  end.
(** simon.cpp:264-308, 409-459 *)
Definition simon64_enc (key : list Z) := keyed 32 4 simon_encrypt (simon64_key key).
Definition simon64_dec (key : list Z) := keyed 32 4 simon_decrypt (simon64_key key).
Definition simon128_enc (key : list Z) := keyed 64 8 simon_encrypt (simon128_key key).
Definition simon128_dec (key : list Z) := keyed 64 8 simon_decrypt (simon128_key key).

(* ------------------------------------------------------------------ *)
(** ** Threefish *)

(** The statements of ProcessAndXorBlock, each a change of one or two of the words G0, G1, ...;
    a summand is an entry of m_rkey, an entry of m_tweak or a constant. *)
Inductive tf_term := TK (i : nat) | TT (i : nat) | TC (c : Z).
Inductive tf_op :=
| Mix (c : Z) (i j : nat)              (* Gi += Gj; Gj = rotlConstant<c>(Gj) ^ Gi; *)
| Unmix (c : Z) (i j : nat)            (* Gj = rotrConstant<c>(Gj ^ Gi); Gi -= Gj; *)
| AddK (i : nat) (t : list tf_term)    (* Gi += t1 + t2 + ...; *)
| SubK (i : nat) (t : list tf_term).   (* Gi -= (t1 + t2 + ...); *)

Definition tf_val (rk tw : list Z) (t : tf_term) : Z :=
  match t with TK i => nth i rk 0 | TT i => nth i tw 0 | TC c => c end.
Definition tf_sum (rk tw : list Z) (t : list tf_term) : Z :=
  fold_right (fun x s => wadd 64 (tf_val rk tw x) s) 0 t.
Definition tf_step (rk tw : list Z) (g : list Z) (o : tf_op) : list Z :=
  match o with
  | Mix c i j =>
      let g := upd i (wadd 64 (nth i g 0) (nth j g 0)) g in
      upd j (Z.lxor (rotl 64 (nth j g 0) c) (nth i g 0)) g
  | Unmix c i j =>
      let g := upd j (rotr 64 (Z.lxor (nth j g 0) (nth i g 0)) c) g in
      upd i (wsub 64 (nth i g 0) (nth j g 0)) g
  | AddK i t => upd i (wadd 64 (nth i g 0) (tf_sum rk tw t)) g
  | SubK i t => upd i (wsub 64 (nth i g 0) (tf_sum rk tw t)) g
  end.
Definition tf_run (rk tw : list Z) (ops : list tf_op) (g : list Z) : list Z :=
  fold_left (tf_step rk tw) ops g.

(** threefish.cpp:22-29 (G256), 78-89 (G512), 150-187 (G1024A, G1024B): the pairs in order. *)
Fixpoint G_ (cs : list Z) (ws : list nat) : list tf_op :=
  match cs, ws with
  | c :: cs', i :: j :: ws' => Mix c i j :: G_ cs' ws'
  | _, _ => []
  end.
(** threefish.cpp:31-38 (IG256), 91-102 (IG512), 189-226 (IG1024A, IG1024B): the pairs from the last to the first. *)
Fixpoint IG_ (cs : list Z) (ws : list nat) : list tf_op :=
  match cs, ws with
  | c :: cs', i :: j :: ws' => IG_ cs' ws' ++ [Unmix c i j]
  | _, _ => []
  end.
(** threefish.cpp:40-44 (KS256), 104-112 (KS512), 228-244 (KS1024): the same text for [n] words, the
    summands of G_i; the macro's argument r is [s] - 1. *)
Definition ks_terms (n s i : nat) : list tf_term :=
  TK ((s + i) mod (n + 1)) ::
  (if (i =? n - 3)%nat then [TT (s mod 3)] else []) ++
  (if (i =? n - 2)%nat then [TT ((s + 1) mod 3)] else []) ++
  (if (i =? n - 1)%nat then [TC (Z.of_nat s)] else []).
Definition KS (n s : nat) : list tf_op := map (fun i => AddK i (ks_terms n s i)) (seq 0 n).
(** threefish.cpp:46-50, 114-122, 246-262 *)
Definition IKS (n s : nat) : list tf_op := map (fun i => SubK i (ks_terms n s i)) (seq 0 n).

(** threefish.cpp:52-62 *)
Definition G256x8 (r : nat) : list tf_op :=
  G_ [14; 16] [0; 1; 2; 3]%nat ++
  G_ [52; 57] [0; 3; 2; 1]%nat ++
  G_ [23; 40] [0; 1; 2; 3]%nat ++
  G_ [5; 37] [0; 3; 2; 1]%nat ++
  KS 4 (r + 1) ++
  G_ [25; 33] [0; 1; 2; 3]%nat ++
  G_ [46; 12] [0; 3; 2; 1]%nat ++
  G_ [58; 22] [0; 1; 2; 3]%nat ++
  G_ [32; 32] [0; 3; 2; 1]%nat ++
  KS 4 (r + 2).
(** threefish.cpp:64-74; IKS256(r - 1) subtracts what KS256(r - 1) added. *)
Definition IG256x8 (r : nat) : list tf_op :=
  IG_ [32; 32] [0; 3; 2; 1]%nat ++
  IG_ [58; 22] [0; 1; 2; 3]%nat ++
  IG_ [46; 12] [0; 3; 2; 1]%nat ++
  IG_ [25; 33] [0; 1; 2; 3]%nat ++
  IKS 4 (r + 1) ++
  IG_ [5; 37] [0; 3; 2; 1]%nat ++
  IG_ [23; 40] [0; 1; 2; 3]%nat ++
  IG_ [52; 57] [0; 3; 2; 1]%nat ++
  IG_ [14; 16] [0; 1; 2; 3]%nat ++
  IKS 4 r.
(** threefish.cpp:136-146 *)
Definition G512x8 (r : nat) : list tf_op :=
  G_ [46; 36; 19; 37] [0; 1; 2; 3; 4; 5; 6; 7]%nat ++
  G_ [33; 27; 14; 42] [2; 1; 4; 7; 6; 5; 0; 3]%nat ++
  G_ [17; 49; 36; 39] [4; 1; 6; 3; 0; 5; 2; 7]%nat ++
  G_ [44; 9; 54; 56] [6; 1; 0; 7; 2; 5; 4; 3]%nat ++
  KS 8 (r + 1) ++
  G_ [39; 30; 34; 24] [0; 1; 2; 3; 4; 5; 6; 7]%nat ++
  G_ [13; 50; 10; 17] [2; 1; 4; 7; 6; 5; 0; 3]%nat ++
  G_ [25; 29; 39; 43] [4; 1; 6; 3; 0; 5; 2; 7]%nat ++
  G_ [8; 35; 56; 22] [6; 1; 0; 7; 2; 5; 4; 3]%nat ++
  KS 8 (r + 2).
(** threefish.cpp:124-134 *)
Definition IG512x8 (r : nat) : list tf_op :=
  IG_ [8; 35; 56; 22] [6; 1; 0; 7; 2; 5; 4; 3]%nat ++
  IG_ [25; 29; 39; 43] [4; 1; 6; 3; 0; 5; 2; 7]%nat ++
  IG_ [13; 50; 10; 17] [2; 1; 4; 7; 6; 5; 0; 3]%nat ++
  IG_ [39; 30; 34; 24] [0; 1; 2; 3; 4; 5; 6; 7]%nat ++
  IKS 8 (r + 1) ++
  IG_ [44; 9; 54; 56] [6; 1; 0; 7; 2; 5; 4; 3]%nat ++
  IG_ [17; 49; 36; 39] [4; 1; 6; 3; 0; 5; 2; 7]%nat ++
  IG_ [33; 27; 14; 42] [2; 1; 4; 7; 6; 5; 0; 3]%nat ++
  IG_ [46; 36; 19; 37] [0; 1; 2; 3; 4; 5; 6; 7]%nat ++
  IKS 8 r.
(** threefish.cpp:264-282 *)
Definition G1024x8 (r : nat) : list tf_op :=
  G_ [24; 13; 8; 47] [0; 1; 2; 3; 4; 5; 6; 7]%nat ++
  G_ [8; 17; 22; 37] [8; 9; 10; 11; 12; 13; 14; 15]%nat ++
  G_ [38; 19; 10; 55] [0; 9; 2; 13; 6; 11; 4; 15]%nat ++
  G_ [49; 18; 23; 52] [10; 7; 12; 3; 14; 5; 8; 1]%nat ++
  G_ [33; 4; 51; 13] [0; 7; 2; 5; 4; 3; 6; 1]%nat ++
  G_ [34; 41; 59; 17] [12; 15; 14; 13; 8; 11; 10; 9]%nat ++
  G_ [5; 20; 48; 41] [0; 15; 2; 11; 6; 13; 4; 9]%nat ++
  G_ [47; 28; 16; 25] [14; 1; 8; 5; 10; 3; 12; 7]%nat ++
  KS 16 (r + 1) ++
  G_ [41; 9; 37; 31] [0; 1; 2; 3; 4; 5; 6; 7]%nat ++
  G_ [12; 47; 44; 30] [8; 9; 10; 11; 12; 13; 14; 15]%nat ++
  G_ [16; 34; 56; 51] [0; 9; 2; 13; 6; 11; 4; 15]%nat ++
  G_ [4; 53; 42; 41] [10; 7; 12; 3; 14; 5; 8; 1]%nat ++
  G_ [31; 44; 47; 46] [0; 7; 2; 5; 4; 3; 6; 1]%nat ++
  G_ [19; 42; 44; 25] [12; 15; 14; 13; 8; 11; 10; 9]%nat ++
  G_ [9; 48; 35; 52] [0; 15; 2; 11; 6; 13; 4; 9]%nat ++
  G_ [23; 31; 37; 20] [14; 1; 8; 5; 10; 3; 12; 7]%nat ++
  KS 16 (r + 2).
(** threefish.cpp:284-302 *)
Definition IG1024x8 (r : nat) : list tf_op :=
  IG_ [9; 48; 35; 52] [0; 15; 2; 11; 6; 13; 4; 9]%nat ++
  IG_ [23; 31; 37; 20] [14; 1; 8; 5; 10; 3; 12; 7]%nat ++
  IG_ [31; 44; 47; 46] [0; 7; 2; 5; 4; 3; 6; 1]%nat ++
  IG_ [19; 42; 44; 25] [12; 15; 14; 13; 8; 11; 10; 9]%nat ++
  IG_ [16; 34; 56; 51] [0; 9; 2; 13; 6; 11; 4; 15]%nat ++
  IG_ [4; 53; 42; 41] [10; 7; 12; 3; 14; 5; 8; 1]%nat ++
  IG_ [41; 9; 37; 31] [0; 1; 2; 3; 4; 5; 6; 7]%nat ++
  IG_ [12; 47; 44; 30] [8; 9; 10; 11; 12; 13; 14; 15]%nat ++
  IKS 16 (r + 1) ++
  IG_ [5; 20; 48; 41] [0; 15; 2; 11; 6; 13; 4; 9]%nat ++
  IG_ [47; 28; 16; 25] [14; 1; 8; 5; 10; 3; 12; 7]%nat ++
  IG_ [33; 4; 51; 13] [0; 7; 2; 5; 4; 3; 6; 1]%nat ++
  IG_ [34; 41; 59; 17] [12; 15; 14; 13; 8; 11; 10; 9]%nat ++
  IG_ [38; 19; 10; 55] [0; 9; 2; 13; 6; 11; 4; 15]%nat ++
  IG_ [49; 18; 23; 52] [10; 7; 12; 3; 14; 5; 8; 1]%nat ++
  IG_ [24; 13; 8; 47] [0; 1; 2; 3; 4; 5; 6; 7]%nat ++
  IG_ [8; 17; 22; 37] [8; 9; 10; 11; 12; 13; 14; 15]%nat ++
  IKS 16 r.

(** threefish.cpp:334-335, 395-397, 461-465: G_i += m_rkey[i], then the two tweak words. *)
Definition tf_first (n : nat) : list tf_op :=
  map (fun i => AddK i [TK i]) (seq 0 n) ++ [AddK (n - 3) [TT 0]; AddK (n - 2) [TT 1]].
(** threefish.cpp:355-356 *)
Definition tf256_last : list tf_op :=
  [SubK 0 [TK 3]; SubK 1 [TK 4]; SubK 2 [TK 0]; SubK 3 [TK 1];
   SubK 1 [TT 0]; SubK 2 [TT 1]; SubK 3 [TC 18]].
(** threefish.cpp:418-420 *)
Definition tf512_last : list tf_op :=
  [SubK 0 [TK 0]; SubK 1 [TK 1]; SubK 2 [TK 2]; SubK 3 [TK 3];
   SubK 4 [TK 4]; SubK 5 [TK 5]; SubK 6 [TK 6]; SubK 7 [TK 7];
   SubK 5 [TT 0]; SubK 6 [TT 1]; SubK 7 [TC 18]].
(** threefish.cpp:488-492 *)
Definition tf1024_last : list tf_op :=
  [SubK 0 [TK 3]; SubK 1 [TK 4]; SubK 2 [TK 5]; SubK 3 [TK 6];
   SubK 4 [TK 7]; SubK 5 [TK 8]; SubK 6 [TK 9]; SubK 7 [TK 10];
   SubK 8 [TK 11]; SubK 9 [TK 12]; SubK 10 [TK 13]; SubK 11 [TK 14];
   SubK 12 [TK 15]; SubK 13 [TK 16]; SubK 14 [TK 0]; SubK 15 [TK 1];
   SubK 13 [TT 2]; SubK 14 [TT 0]; SubK 15 [TC 20]].

(** threefish.cpp:325-344 and 346-365, 384-429, 449-501: the bodies. In IG(r) above the last IKS of
    r = 0 subtracts subkey 0, which is what the first additions of the encryption added. *)
Definition tf256_enc_ops : list tf_op :=
  tf_first 4 ++ flat_map G256x8 [0; 2; 4; 6; 8; 10; 12; 14; 16]%nat.
Definition tf256_dec_ops : list tf_op :=
  tf256_last ++ flat_map IG256x8 [16; 14; 12; 10; 8; 6; 4; 2; 0]%nat.
Definition tf512_enc_ops : list tf_op :=
  tf_first 8 ++ flat_map G512x8 [0; 2; 4; 6; 8; 10; 12; 14; 16]%nat.
Definition tf512_dec_ops : list tf_op :=
  tf512_last ++ flat_map IG512x8 [16; 14; 12; 10; 8; 6; 4; 2; 0]%nat.
Definition tf1024_enc_ops : list tf_op :=
  tf_first 16 ++ flat_map G1024x8 [0; 2; 4; 6; 8; 10; 12; 14; 16; 18]%nat.
Definition tf1024_dec_ops : list tf_op :=
  tf1024_last ++ flat_map IG1024x8 [18; 16; 14; 12; 10; 8; 6; 4; 2; 0]%nat.

(** threefish.cpp:311-323, 369-382, 433-447: the key words and their parity word. *)
Definition tf_key (n : nat) (key : list Z) : list Z :=
  let k := get_user_key false 8 n key in
  k ++ [fold_left Z.lxor k 0x1BD11BDAA9FC1A22].
(** threefish.h:44-59 SetTweak; [None]: no Tweak parameter. *)
Definition tf_tweak (t : option (list Z)) : list Z :=
  match t with
  | Some t => let k := get_user_key false 8 2 t in k ++ [Z.lxor (nth 0 k 0) (nth 1 k 0)]
  | None => [0; 0; 0]
  end.
Definition tf_process (n : nat) (ops : list tf_op) (key : list Z) (tweak : option (list Z)) :
  list Z -> option (list Z) -> option (list Z) :=
  process false 8 n (fun g => Some (tf_run (tf_key n key) (tf_tweak tweak) ops g)).
Definition threefish256_enc := tf_process 4 tf256_enc_ops.
Definition threefish256_dec := tf_process 4 tf256_dec_ops.
Definition threefish512_enc := tf_process 8 tf512_enc_ops.
Definition threefish512_dec := tf_process 8 tf512_dec_ops.
Definition threefish1024_enc := tf_process 16 tf1024_enc_ops.
Definition threefish1024_dec := tf_process 16 tf1024_dec_ops.
