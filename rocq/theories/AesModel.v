(** Rijndael (AES) as code: rijndael.cpp and rdtables.cpp, the portable C++ path on a little-endian host
    without CRYPTOPP_ALLOW_RIJNDAEL_UNALIGNED_DATA_ACCESS (Te and Td are arrays of 1024 32-bit words).
    The AES-NI, SSE2, ARM and POWER paths are not modelled. The cache-timing countermeasure
    (rijndael.cpp:585-598, 687-700, 728-737) computes u = 0 & ... = 0 and ors it into the state: left out. *)
From Coq Require Import ZArith List Bool Arith.
From Verif Require Import Base CipherModel.
Import ListNotations.
Local Open Scope Z_scope.

(** rdtables.cpp Se[256] *)
Definition Se : list Z :=
  [99; 124; 119; 123; 242; 107; 111; 197; 48; 1; 103; 43; 254; 215; 171; 118;
   202; 130; 201; 125; 250; 89; 71; 240; 173; 212; 162; 175; 156; 164; 114; 192;
   183; 253; 147; 38; 54; 63; 247; 204; 52; 165; 229; 241; 113; 216; 49; 21;
   4; 199; 35; 195; 24; 150; 5; 154; 7; 18; 128; 226; 235; 39; 178; 117;
   9; 131; 44; 26; 27; 110; 90; 160; 82; 59; 214; 179; 41; 227; 47; 132;
   83; 209; 0; 237; 32; 252; 177; 91; 106; 203; 190; 57; 74; 76; 88; 207;
   208; 239; 170; 251; 67; 77; 51; 133; 69; 249; 2; 127; 80; 60; 159; 168;
   81; 163; 64; 143; 146; 157; 56; 245; 188; 182; 218; 33; 16; 255; 243; 210;
   205; 12; 19; 236; 95; 151; 68; 23; 196; 167; 126; 61; 100; 93; 25; 115;
   96; 129; 79; 220; 34; 42; 144; 136; 70; 238; 184; 20; 222; 94; 11; 219;
   224; 50; 58; 10; 73; 6; 36; 92; 194; 211; 172; 98; 145; 149; 228; 121;
   231; 200; 55; 109; 141; 213; 78; 169; 108; 86; 244; 234; 101; 122; 174; 8;
   186; 120; 37; 46; 28; 166; 180; 198; 232; 221; 116; 31; 75; 189; 139; 138;
   112; 62; 181; 102; 72; 3; 246; 14; 97; 53; 87; 185; 134; 193; 29; 158;
   225; 248; 152; 17; 105; 217; 142; 148; 155; 30; 135; 233; 206; 85; 40; 223;
   140; 161; 137; 13; 191; 230; 66; 104; 65; 153; 45; 15; 176; 84; 187; 22].
(** rdtables.cpp Sd[256] *)
Definition Sd : list Z :=
  [82; 9; 106; 213; 48; 54; 165; 56; 191; 64; 163; 158; 129; 243; 215; 251;
   124; 227; 57; 130; 155; 47; 255; 135; 52; 142; 67; 68; 196; 222; 233; 203;
   84; 123; 148; 50; 166; 194; 35; 61; 238; 76; 149; 11; 66; 250; 195; 78;
   8; 46; 161; 102; 40; 217; 36; 178; 118; 91; 162; 73; 109; 139; 209; 37;
   114; 248; 246; 100; 134; 104; 152; 22; 212; 164; 92; 204; 93; 101; 182; 146;
   108; 112; 72; 80; 253; 237; 185; 218; 94; 21; 70; 87; 167; 141; 157; 132;
   144; 216; 171; 0; 140; 188; 211; 10; 247; 228; 88; 5; 184; 179; 69; 6;
   208; 44; 30; 143; 202; 63; 15; 2; 193; 175; 189; 3; 1; 19; 138; 107;
   58; 145; 17; 65; 79; 103; 220; 234; 151; 242; 207; 206; 240; 180; 230; 115;
   150; 172; 116; 34; 231; 173; 53; 133; 226; 249; 55; 232; 28; 117; 223; 110;
   71; 241; 26; 113; 29; 41; 197; 137; 111; 183; 98; 14; 170; 24; 190; 27;
   252; 86; 62; 75; 198; 210; 121; 32; 154; 219; 192; 254; 120; 205; 90; 244;
   31; 221; 168; 51; 136; 7; 199; 49; 177; 18; 16; 89; 39; 128; 236; 95;
   96; 81; 127; 169; 25; 181; 74; 13; 45; 229; 122; 159; 147; 201; 156; 239;
   160; 224; 59; 77; 174; 42; 245; 176; 200; 235; 187; 60; 131; 83; 153; 97;
   23; 43; 4; 126; 186; 119; 214; 38; 225; 105; 20; 99; 85; 33; 12; 125].
(** rdtables.cpp rcon[] *)
Definition rcon : list Z :=
  [0x1000000; 0x2000000; 0x4000000; 0x8000000; 0x10000000; 0x20000000; 0x40000000; 0x80000000; 0x1b000000; 0x36000000].
Definition se (x : Z) : Z := nth (Z.to_nat x) Se 0.
Definition sd (x : Z) : Z := nth (Z.to_nat x) Sd 0.

(** rijndael.cpp:238-246, the macros f2 ... fe on an int in [0, 256) *)
Definition f2 (x : Z) : Z := Z.lxor (Z.shiftl x 1) (Z.land (Z.shiftr x 7) 1 * 0x11b).
Definition f4 (x : Z) : Z :=
  Z.lxor (Z.lxor (Z.shiftl x 2) (Z.land (Z.shiftr x 6) 1 * 0x11b)) (Z.land (Z.shiftr x 6) 2 * 0x11b).
Definition f8 (x : Z) : Z :=
  Z.lxor (Z.lxor (Z.lxor (Z.shiftl x 3) (Z.land (Z.shiftr x 5) 1 * 0x11b)) (Z.land (Z.shiftr x 5) 2 * 0x11b))
    (Z.land (Z.shiftr x 5) 4 * 0x11b).
Definition f3 (x : Z) : Z := Z.lxor (f2 x) x.
Definition f9 (x : Z) : Z := Z.lxor (f8 x) x.
Definition fb (x : Z) : Z := Z.lxor (Z.lxor (f8 x) (f2 x)) x.
Definition fd (x : Z) : Z := Z.lxor (Z.lxor (f8 x) (f4 x)) x.
Definition fe (x : Z) : Z := Z.lxor (Z.lxor (f8 x) (f4 x)) (f2 x).

(** rijndael.cpp:271-294 FillEncTable and 296-315 FillDecTable: entry i + 256 j is y rotated right j times
    by 8 bits. *)
Definition enc_word (x : Z) : Z :=
  Z.lor (Z.lor (Z.lor (f3 x) (Z.shiftl x 8)) (Z.shiftl x 16)) (Z.shiftl (f2 x) 24).
Definition dec_word (x : Z) : Z :=
  Z.lor (Z.lor (Z.lor (fb x) (Z.shiftl (fd x) 8)) (Z.shiftl (f9 x) 16)) (Z.shiftl (fe x) 24).
Definition rot8 (y : Z) : Z := rotr 32 y 8.
Definition fill (y : Z -> Z) (box : list Z) : list Z :=
  map y box ++ map (fun x => rot8 (y x)) box ++ map (fun x => rot8 (rot8 (y x))) box
    ++ map (fun x => rot8 (rot8 (rot8 (y x)))) box.
Definition Te : list Z := fill enc_word Se.
Definition Td : list Z := fill dec_word Sd.

(** rijndael.cpp:222, 223 TL_F and TL_M (little endian) *)
Definition tl_f (T : list Z) (i x : Z) : Z := rotr 32 (nth (Z.to_nat x) T 0) ((3 - i) * 8).
Definition tl_m (T : list Z) (i x : Z) : Z := nth (Z.to_nat (i * 256 + x)) T 0.

(** rijndael.cpp:186-190 QUARTER_ROUND *)
Definition quarter (L : Z -> Z -> Z) (t a b c d : Z) : Z * Z * Z * Z :=
  let a := Z.lxor a (L 3 (Z.land t 255)) in let t := Z.shiftr t 8 in
  let b := Z.lxor b (L 2 (Z.land t 255)) in let t := Z.shiftr t 8 in
  let c := Z.lxor c (L 1 (Z.land t 255)) in let t := Z.shiftr t 8 in
  let d := Z.lxor d (L 0 t) in
  (a, b, c, d).
(** rijndael.cpp:216, 217 QUARTER_ROUND_FE, QUARTER_ROUND_FD: the arguments are reversed *)
Definition quarter_f (T : list Z) (t a b c d : Z) : Z * Z * Z * Z :=
  let '(d, c, b, a) := quarter (tl_f T) t d c b a in (a, b, c, d).
(** rijndael.cpp:212, 213 QUARTER_ROUND_E, QUARTER_ROUND_D *)
Definition quarter_m (T : list Z) (t a b c d : Z) : Z * Z * Z * Z := quarter (tl_m T) t a b c d.

(** Four words of state. *)
Definition st4 : Type := Z * Z * Z * Z.
Definition four (rk : list Z) (off : nat) : st4 := (kat rk off, kat rk (off + 1), kat rk (off + 2), kat rk (off + 3)).

(** rijndael.cpp:600-603, 611-614, 618-621: the new state [s] starts as the round key, each old word is
    spread over it. *)
Definition round_e (Q : Z -> Z -> Z -> Z -> Z -> Z * Z * Z * Z) (s t : st4) : st4 :=
  let '(t0, t1, t2, t3) := t in
  let '(s0, s1, s2, s3) := s in
  let '(s0, s1, s2, s3) := Q t3 s0 s1 s2 s3 in
  let '(s3, s0, s1, s2) := Q t2 s3 s0 s1 s2 in
  let '(s2, s3, s0, s1) := Q t1 s2 s3 s0 s1 in
  let '(s1, s2, s3, s0) := Q t0 s1 s2 s3 s0 in
  (s0, s1, s2, s3).
(** rijndael.cpp:702-705, 713-716, 720-723 *)
Definition round_d (Q : Z -> Z -> Z -> Z -> Z -> Z * Z * Z * Z) (s t : st4) : st4 :=
  let '(t0, t1, t2, t3) := t in
  let '(s0, s1, s2, s3) := s in
  let '(s2, s1, s0, s3) := Q t3 s2 s1 s0 s3 in
  let '(s1, s0, s3, s2) := Q t2 s1 s0 s3 s2 in
  let '(s0, s3, s2, s1) := Q t1 s0 s3 s2 s1 in
  let '(s3, s2, s1, s0) := Q t0 s3 s2 s1 s0 in
  (s0, s1, s2, s3).

(** rijndael.cpp:605-624 and 707-726, do { ... } while (--r); answers the state and where rk points. *)
Fixpoint aes_loop (round : st4 -> st4 -> st4) (r : nat) (rk : list Z) (off : nat) (t : st4) : st4 * nat :=
  let s := round (four rk off) t in
  let t := round (four rk (off + 4)) s in
  let off := (off + 8)%nat in
  match r with
  | O => (t, off)
  | S O => (t, off)
  | S r' => aes_loop round r' rk off t
  end.

(** rijndael.cpp:192-196 QUARTER_ROUND_LE: byte 1 of the table entry; 205-209 QUARTER_ROUND_LD: Sd *)
Definition last_e (x : Z) : Z := Z.land (Z.shiftr (nth (Z.to_nat x) Te 0) 8) 255.
Definition quarter_l (box : Z -> Z) (t : Z) (a b c d : nat) (temp : list Z) : list Z :=
  let temp := upd a (box (Z.land t 255)) temp in let t := Z.shiftr t 8 in
  let temp := upd b (box (Z.land t 255)) temp in let t := Z.shiftr t 8 in
  let temp := upd c (box (Z.land t 255)) temp in let t := Z.shiftr t 8 in
  upd d (box t) temp.

(** rijndael.cpp:629-632, 743-746: the 16 bytes of tbw *)
Definition last_enc (t : st4) : list Z :=
  let '(t0, t1, t2, t3) := t in
  let temp := repeat 0 16 in
  let temp := quarter_l last_e t2 15 2 5 8 temp in
  let temp := quarter_l last_e t1 11 14 1 4 temp in
  let temp := quarter_l last_e t0 7 10 13 0 temp in
  quarter_l last_e t3 3 6 9 12 temp.
Definition last_dec (t : st4) : list Z :=
  let '(t0, t1, t2, t3) := t in
  let temp := repeat 0 16 in
  let temp := quarter_l sd t2 7 2 13 8 temp in
  let temp := quarter_l sd t1 3 14 9 4 temp in
  let temp := quarter_l sd t0 15 10 5 0 temp in
  quarter_l sd t3 11 6 1 12 temp.

(** rijndael.cpp:568-635 and 670-749: the block functions on words read and written in little-endian
    order. *)
Definition aes_words (first round : st4 -> st4 -> st4) (last : st4 -> list Z) (rounds : nat) (rk : list Z)
  (s : list Z) : option (list Z) :=
  let s := (Z.lxor (kat s 0) (kat rk 0), Z.lxor (kat s 1) (kat rk 1),
            Z.lxor (kat s 2) (kat rk 2), Z.lxor (kat s 3) (kat rk 3)) in
  let t := first (four rk 4) s in
  let '(t, off) := aes_loop round (rounds / 2 - 1) rk 8 t in
  let tbw := get_block false 4 4 (last t) in
  Some [Z.lxor (kat tbw 0) (kat rk off); Z.lxor (kat tbw 1) (kat rk (off + 1));
        Z.lxor (kat tbw 2) (kat rk (off + 2)); Z.lxor (kat tbw 3) (kat rk (off + 3))].

(** misc.h GETBYTE: byte y of x, counted from the least significant *)
Definition getbyte (x y : Z) : Z := Z.land (Z.shiftr x (8 * y)) 255.

(** rijndael.cpp:454-489, while (true): [key] is m_key, [off] is rk - m_key, [nk] is keyLen/4 and [rc] the
    rest of rcon. [None]: the loop does not end. *)
Fixpoint expand_key (fuel nk off : nat) (rc : list Z) (key : list Z) : option (list Z) :=
  match fuel with
  | O => None
  | S f =>
      let temp := kat key (off + nk - 1) in
      let x := Z.lxor (Z.lxor (Z.lxor (Z.shiftl (se (getbyte temp 2)) 24) (Z.shiftl (se (getbyte temp 1)) 16))
                 (Z.shiftl (se (getbyte temp 0)) 8)) (se (getbyte temp 3)) in
      let key := upd (off + nk) (Z.lxor (Z.lxor (kat key off) x) (hd 0 rc)) key in
      let key := upd (off + nk + 1) (Z.lxor (kat key (off + 1)) (kat key (off + nk))) key in
      let key := upd (off + nk + 2) (Z.lxor (kat key (off + 2)) (kat key (off + nk + 1))) key in
      let key := upd (off + nk + 3) (Z.lxor (kat key (off + 3)) (kat key (off + nk + 2))) key in
      if (off + nk + 4 =? length key)%nat then Some key
      else
        let key :=
          if (nk =? 6)%nat then
            let key := upd (off + 10) (Z.lxor (kat key (off + 4)) (kat key (off + 9))) key in
            upd (off + 11) (Z.lxor (kat key (off + 5)) (kat key (off + 10))) key
          else if (nk =? 8)%nat then
            let temp := kat key (off + 11) in
            let key := upd (off + 12) (Z.lxor (Z.lxor (Z.lxor (Z.lxor (kat key (off + 4)) (Z.shiftl (se (getbyte temp 3)) 24))
                 (Z.shiftl (se (getbyte temp 2)) 16)) (Z.shiftl (se (getbyte temp 1)) 8)) (se (getbyte temp 0))) key in
            let key := upd (off + 13) (Z.lxor (kat key (off + 5)) (kat key (off + 12))) key in
            let key := upd (off + 14) (Z.lxor (kat key (off + 6)) (kat key (off + 13))) key in
            upd (off + 15) (Z.lxor (kat key (off + 7)) (kat key (off + 14))) key
          else key in
        expand_key f nk (off + nk) (tl rc) key
  end.

(** rijndael.cpp:424 m_rounds = keyLen/4 + 6; :425 m_key.New(4*(m_rounds+1)); :449 GetUserKey. The memory of
    New is taken to be zero; every word is written before it is read. *)
Definition aes_rounds (key : list Z) : nat := (length key / 4 + 6)%nat.
Definition aes_schedule (key : list Z) : option (list Z) :=
  let nk := (length key / 4)%nat in
  let size := (4 * (aes_rounds key + 1))%nat in
  expand_key 20 nk 0 rcon (get_user_key true 4 nk key ++ repeat 0 (size - nk)).

(** misc.h ByteReverse(word32) *)
Definition bswap (x : Z) : Z := be_val (le_bytes 4 x).

(** rijndael.cpp:493-500: the first and last four words are byte-reversed *)
Definition reverse_ends (rounds : nat) (rk : list Z) : list Z :=
  map bswap (firstn 4 rk) ++ firstn (4 * rounds - 4) (skipn 4 rk) ++ map bswap (skipn (4 * rounds) rk).
Definition aes_enc_key (key : list Z) : option (list Z) :=
  match aes_schedule key with Some rk => Some (reverse_ends (aes_rounds key) rk) | None => None end.

(** rijndael.cpp:506-508 InverseMixColumn *)
Definition inverse_mix_column (x : Z) : Z :=
  Z.lxor (Z.lxor (Z.lxor (tl_m Td 0 (se (getbyte x 3))) (tl_m Td 1 (se (getbyte x 2))))
     (tl_m Td 2 (se (getbyte x 1)))) (tl_m Td 3 (se (getbyte x 0))).

(** One of the four statements of rijndael.cpp:513-516 and of 524-527: the words at i and j change places,
    both through [f]. *)
Definition swap_words (f : Z -> Z) (i j : nat) (rk : list Z) : list Z :=
  let temp := f (kat rk i) in
  let rk := upd i (f (kat rk j)) rk in
  upd j temp rk.
Definition swap_four (f : Z -> Z) (i j : nat) (rk : list Z) : list Z :=
  let rk := swap_words f i j rk in
  let rk := swap_words f (i + 1) (j + 1) rk in
  let rk := swap_words f (i + 2) (j + 2) rk in
  swap_words f (i + 3) (j + 3) rk.

(** rijndael.cpp:511-517, for (i = 4, j = 4*m_rounds-4; i < j; i += 4, j -= 4); answers i too *)
Fixpoint mix_keys (fuel : nat) (i j : nat) (rk : list Z) : option (nat * list Z) :=
  if (i <? j)%nat then
    match fuel with
    | O => None
    | S f => mix_keys f (i + 4) (j - 4) (swap_four inverse_mix_column i j rk)
    end
  else Some (i, rk).

(** rijndael.cpp:501-528 *)
Definition aes_dec_key (key : list Z) : option (list Z) :=
  match aes_schedule key with
  | None => None
  | Some rk =>
      let r := aes_rounds key in
      match mix_keys 20 4 (4 * r - 4) rk with
      | None => None
      | Some (i, rk) =>
          let rk := upd i (inverse_mix_column (kat rk i)) rk in
          let rk := upd (i + 1) (inverse_mix_column (kat rk (i + 1))) rk in
          let rk := upd (i + 2) (inverse_mix_column (kat rk (i + 2))) rk in
          let rk := upd (i + 3) (inverse_mix_column (kat rk (i + 3))) rk in
          Some (swap_four bswap 0 (4 * r) rk)
      end
  end.

(** rijndael.cpp:533-635 Rijndael::Enc::ProcessAndXorBlock, 637-749 Rijndael::Dec::ProcessAndXorBlock, of an
    object keyed by UncheckedSetKey (rijndael.cpp:403-531) *)
Definition aes_enc (key : list Z) (inb : list Z) (mask : option (list Z)) : option (list Z) :=
  match aes_enc_key key with
  | None => None
  | Some rk => process false 4 4
      (aes_words (round_e (quarter_f Te)) (round_e (quarter_m Te)) last_enc (aes_rounds key) rk) inb mask
  end.
Definition aes_dec (key : list Z) (inb : list Z) (mask : option (list Z)) : option (list Z) :=
  match aes_dec_key key with
  | None => None
  | Some rk => process false 4 4
      (aes_words (round_d (quarter_f Td)) (round_d (quarter_m Td)) last_dec (aes_rounds key) rk) inb mask
  end.
