(** DeflateModel: Deflator (zdeflate.h, zdeflate.cpp:99-197 and 237-819).

    Positions and lengths are [nat], bytes, counts and codes of the writer [Z].
    WritePrestreamHeader, ProcessUncompressedData and WritePoststreamTail, which
    Deflator leaves empty, are not modelled; nor is the non-blocking mode, which
    is refused with an exception. *)
From Coq Require Import ZArith List Bool Arith.
From Verif Require Import Base BitioModel HuffmanModel.
Import ListNotations.
Open Scope nat_scope.

(** * HuffmanEncoder::GenerateCodeLengths (zdeflate.cpp:125-197) *)

(** The nodes of the tree: [symbol], and the union of [parent], [depth] and
    [freq], which is one number.  The first nCodes are the leaves.  std::sort is
    an insertion sort here. *)
Fixpoint insert_leaf (x : nat * Z) (l : list (nat * Z)) : list (nat * Z) :=
  match l with
  | [] => [x]
  | y :: l' => if (snd x <=? snd y)%Z then x :: l else y :: insert_leaf x l'
  end.
Definition sort_leaves (l : list (nat * Z)) : list (nat * Z) := fold_right insert_leaf [] l.

(** zdeflate.cpp:132-137. *)
Definition leaves_of (counts : list Z) : list (nat * Z) :=
  sort_leaves (combine (seq 0 (length counts)) counts).

(** std::upper_bound for 0 (zdeflate.cpp:138). *)
Definition tree_begin (leaves : list (nat * Z)) : nat :=
  length (filter (fun p => (snd p <=? 0)%Z) leaves).

(** The choice of the least of the nodes left (zdeflate.cpp:150 and 153): the
    chosen one, leastLeaf and leastInterior after it. *)
Definition pick (n i : nat) (vals : list Z) (ll li : nat) : nat * nat * nat :=
  if (ll =? n) || ((li <? i) && (nth li vals 0 <? nth ll vals 0)%Z)
  then (li, ll, S li) else (ll, S ll, li).

(** The loop at zdeflate.cpp:147-156, [k] rounds from node [i]. *)
Fixpoint build (k n i : nat) (vals : list Z) (ll li : nat) : list Z :=
  match k with
  | O => vals
  | S k =>
    let '(a, ll, li) := pick n i vals ll li in
    let vals := upd a (Z.of_nat i) (upd i (nth a vals 0%Z) vals) in
    let '(b, ll, li) := pick n i vals ll li in
    let vals := upd b (Z.of_nat i) (upd i ((nth i vals 0 + nth b vals 0) mod 2 ^ 32)%Z vals) in
    build k n (S i) vals ll li
  end.

(** zdeflate.cpp:159-161: from node [n + k - 1] down to [n]. *)
Fixpoint depths (k n : nat) (vals : list Z) : list Z :=
  match k with
  | O => vals
  | S k => depths k n (upd (n + k) (nth (Z.to_nat (nth (n + k) vals 0%Z)) vals 0 + 1)%Z vals)
  end.

(** The depth of a leaf (zdeflate.cpp:167-168). *)
Definition leaf_depth (m : nat) (vals : list Z) (i : nat) : nat :=
  Nat.min m (Z.to_nat (nth (Z.to_nat (nth i vals 0%Z)) vals 0%Z + 1)).

(** while (blCount[bits] == 0) bits-- (zdeflate.cpp:178-179 and 191-192). *)
Fixpoint last_used (bl : list nat) (b : nat) : option nat :=
  if nth b bl 0 =? 0 then match b with O => None | S b => last_used bl b end else Some b.

(** zdeflate.cpp:175-184. *)
Fixpoint shorten (overflow m : nat) (bl : list nat) : option (list nat) :=
  match overflow with
  | O => Some bl
  | S overflow =>
    match last_used bl (m - 1) with
    | None => None
    | Some b =>
      let bl := upd b (nth b bl 0 - 1) bl in
      let bl := upd (b + 1) (nth (b + 1) bl 0 + 2) bl in
      shorten overflow m (upd m (nth m bl 0 - 1) bl)
    end
  end.

(** zdeflate.cpp:186-195. *)
Fixpoint assign (symbols : list nat) (bl : list nat) (b : nat) (out : list nat) : option (list nat) :=
  match symbols with
  | [] => Some out
  | s :: symbols =>
    match last_used bl b with
    | None => None
    | Some b => assign symbols (upd b (nth b bl 0 - 1) bl) b (upd s b out)
    end
  end.

(** The whole function; the result is codeBits.  [None] is a bit count going
    below zero. *)
Definition code_lengths (m : nat) (counts : list Z) : option (list nat) :=
  let n := length counts in
  let leaves := leaves_of counts in
  let tb := tree_begin leaves in
  if tb =? n then Some (repeat 0 n)
  else
    let size := n + n - tb - 1 in
    let vals := map snd leaves ++ repeat 0%Z (size - n) in
    let vals := build (size - n) n n vals tb n in
    let vals := upd (size - 1) 0%Z vals in
    let vals := depths (size - 1 - n) n vals in
    let ds := map (leaf_depth m vals) (seq tb (n - tb)) in
    let bl := fold_left (fun t d => upd d (nth d t 0 + 1) t) ds (repeat 0 (m + 1)) in
    let sum := fold_left (fun s d => s + 2 ^ (m - d)) ds 0 in
    match shorten (sum - 2 ^ m) m bl with
    | None => None
    | Some bl => assign (skipn tb (map fst leaves)) bl m (repeat 0 n)
    end.

(** * Literals and pairs *)

(** EncodedMatch (zdeflate.h:150-156), bit fields of 9, 5, 5 and 13 bits. *)
Record token : Type := mktok { t_lit : nat; t_lextra : nat; t_dist : nat; t_dextra : nat }.

(** The tables of MatchFound (zdeflate.cpp:580-602). *)
Definition length_codes : list nat :=
  [257; 258; 259; 260; 261; 262; 263; 264; 265; 265; 266; 266; 267; 267; 268; 268]
  ++ repeat 269 4 ++ repeat 270 4 ++ repeat 271 4 ++ repeat 272 4
  ++ repeat 273 8 ++ repeat 274 8 ++ repeat 275 8 ++ repeat 276 8
  ++ repeat 277 16 ++ repeat 278 16 ++ repeat 279 16 ++ repeat 280 16
  ++ repeat 281 32 ++ repeat 282 32 ++ repeat 283 32 ++ repeat 284 31 ++ [285].
Definition length_bases : list nat :=
  [3; 4; 5; 6; 7; 8; 9; 10; 11; 13; 15; 17; 19; 23; 27; 31; 35; 43; 51; 59; 67; 83; 99; 115; 131; 163; 195;
   227; 258].
Definition distance_bases : list Z :=
  [1; 2; 3; 4; 5; 7; 9; 13; 17; 25; 33; 49; 65; 97; 129; 193; 257; 385; 513; 769; 1025; 1537; 2049; 3073;
   4097; 6145; 8193; 12289; 16385; 24577]%Z.

(** std::upper_bound(distanceBases, distanceBases+30, distance) - distanceBases
    (zdeflate.cpp:610). *)
Definition upper_bound_distance (d : Z) : nat := length (filter (fun b => (b <=? d)%Z) distance_bases).

(** zdeflate.cpp:605-612. *)
Definition match_token (distance : Z) (len : nat) : token :=
  let lc := nth (len - 3) length_codes 0 in
  let dc := upper_bound_distance distance - 1 in
  mktok (lc mod 512) ((len - nth (lc - 257) length_bases 0) mod 32) (dc mod 32)
        (Z.to_nat ((distance - nth dc distance_bases 0%Z) mod 8192)).

(** * EncodeBlock *)

(** CodeLengthEncode (zdeflate.cpp:619-659): [before] are the lengths up to p,
    [rest] those from p on; the code, its extra bits, their number, and how far
    p moves. *)
Fixpoint run_of (v : nat) (l : list nat) (limit : nat) : nat :=
  match l, limit with
  | x :: l, S limit => if x =? v then S (run_of v l limit) else 0
  | _, _ => 0
  end.
Definition code_length_encode (before rest : list nat) : nat * nat * nat * nat :=
  let v := nth 0 rest 0 in
  if 3 <=? length rest
  then
    if (v =? 0) && (nth 1 rest 0 =? 0) && (nth 2 rest 0 =? 0)
    then let rep := 3 + run_of 0 (skipn 3 rest) 135 in
         if rep <=? 10 then (17, rep - 3, 3, rep) else (18, rep - 11, 7, rep)
    else if negb (length before =? 0) && (v =? last before 0) && (v =? nth 1 rest 0) && (v =? nth 2 rest 0)
    then let rep := 3 + run_of v (skipn 3 rest) 3 in (16, rep - 3, 2, rep)
    else (v, 0, 0, 1)
  else (v, 0, 0, 1).

(** The loops at zdeflate.cpp:697-703 and 720-727: the codes with their extra
    bits. *)
Fixpoint run_lengths (fuel : nat) (before rest : list nat) : list (nat * nat * nat) :=
  match fuel with
  | O => []
  | S fuel =>
    match rest with
    | [] => []
    | _ => let '(c, e, k, n) := code_length_encode before rest in
           (c, e, k) :: run_lengths fuel (before ++ firstn n rest) (skipn n rest)
    end
  end.

(** codeLengthCodeCounts[code]++ (zdeflate.cpp:695-703). *)
Definition count_codes (l : list (nat * nat * nat)) : list Z :=
  fold_left (fun t c => upd (fst (fst c)) (nth (fst (fst c)) t 0 + 1)%Z t) l (repeat 0%Z 19).

(** FindIfNot(...) at zdeflate.cpp:685 and 689: how many of the entries from [a]
    on are needed. *)
Fixpoint trim (l : list nat) : nat :=
  match l with
  | [] => 0
  | x :: l => match trim l with O => if x =? 0 then 0 else 1 | S k => S (S k) end
  end.

(** border (zdeflate.cpp:706-707), hclen (zdeflate.cpp:708-711). *)
Definition border : list nat := [16; 17; 18; 0; 8; 7; 9; 6; 10; 5; 11; 4; 12; 3; 13; 2; 14; 1; 15].
Fixpoint hclen_from (k : nat) (cl : list nat) : nat :=
  match k with
  | O => 0
  | S k => if (4 <? S k) && (nth (nth k border 0) cl 0 =? 0) then hclen_from k cl else S k
  end.

(** lengthExtraBits and distanceExtraBits (zdeflate.cpp:730-736). *)
Definition length_extra_bits : list nat :=
  [0; 0; 0; 0; 0; 0; 0; 0; 1; 1; 1; 1; 2; 2; 2; 2; 3; 3; 3; 3; 4; 4; 4; 4; 5; 5; 5; 5; 0].
Definition distance_extra_bits : list nat :=
  [0; 0; 0; 0; 1; 1; 2; 2; 3; 3; 4; 4; 5; 5; 6; 6; 7; 7; 8; 8; 9; 9; 10; 10; 11; 11; 12; 12; 13; 13].

Definition put (w : writer) (v n : nat) : writer := put_bits w (Z.of_nat v) n.

(** zdeflate.cpp:741-754. *)
Definition put_token (lit dist : list (Z * nat)) (w : writer) (t : token) : writer :=
  let w := encode_symbol lit w (t_lit t) in
  if 257 <=? t_lit t
  then
    let w := put w (t_lextra t) (nth (t_lit t - 257) length_extra_bits 0) in
    let w := encode_symbol dist w (t_dist t) in
    put w (t_dextra t) (nth (t_dist t) distance_extra_bits 0)
  else w.
Definition put_tokens (lit dist : list (Z * nat)) (w : writer) (l : list token) : writer :=
  encode_symbol lit (fold_left (put_token lit dist) l w) 256.

(** The static encoders (zdeflate.cpp:253-263). *)
Definition static_literals : list nat := repeat 8 144 ++ repeat 9 112 ++ repeat 7 24 ++ repeat 8 8.
Definition static_distances : list nat := repeat 5 32.

(** The dynamic header (zdeflate.cpp:677-728): the writer and the two lists of
    lengths. *)
Definition put_dynamic (w : writer) (lits dists : list Z) : option (writer * list nat * list nat) :=
  match code_lengths 15 (upd 256 1%Z lits), code_lengths 15 dists with
  | Some ll, Some dl =>
    let hlit := trim (skipn 257 ll) in
    let hdist := trim (skipn 1 dl) in
    let combined := firstn (hlit + 257) ll ++ firstn (hdist + 1) dl in
    let codes := run_lengths (length combined) [] combined in
    match code_lengths 7 (count_codes codes) with
    | None => None
    | Some cl =>
      let enc := enc_init cl in
      let hclen := hclen_from 19 cl - 4 in
      let w := put (put (put w hlit 5) hdist 5) hclen 4 in
      let w := fold_left (fun w b => put w (nth b cl 0) 3) (firstn (hclen + 4) border) w in
      let w := fold_left (fun w c => put (encode_symbol enc w (fst (fst c))) (snd (fst c)) (snd c)) codes w in
      Some (w, ll, dl)
    end
  | _, _ => None
  end.

(** EncodeBlock (zdeflate.cpp:661-756).  [data] is m_blockLength bytes from
    m_blockStart.  PutWord16 and Put go past the bit buffer, which is empty. *)
Inductive kind : Type := STORED | STATIC | DYNAMIC.
Definition encode_block (w : writer) (eof : bool) (k : kind) (data : list Z) (toks : list token)
  (lits dists : list Z) : option writer :=
  let w := put w (if eof then 1 else 0) 1 in
  let w := put w (match k with STORED => 0 | STATIC => 1 | DYNAMIC => 2 end) 2 in
  match k with
  | STORED =>
    let w := flush_bits w in
    let len := Z.of_nat (length data) in
    let nlen := (65535 - len mod 65536)%Z in
    Some (mkwr (w_buf w) (w_cnt w) (w_pend w)
               (w_sent w ++ [len mod 256; (len / 256) mod 256; nlen mod 256; (nlen / 256) mod 256]%Z ++ data)
               (w_counting w) (w_count w))
  | STATIC => Some (put_tokens (enc_init static_literals) (enc_init static_distances) w toks)
  | DYNAMIC =>
    match put_dynamic w lits dists with
    | None => None
    | Some (w, ll, dl) => Some (put_tokens (enc_init ll) (enc_init dl) w toks)
    end
  end.

(** * Deflator *)

Record deflator : Type := mkdef
  { d_level : nat; d_comp : nat; d_skip : nat; d_count : nat;
    d_good : nat; d_lazy : nat; d_chain : nat;
    d_avail : bool; d_dict : nat; d_start : nat; d_look : nat; d_min : nat; d_pmatch : Z; d_plen : nat;
    d_buf : list Z; d_head : list nat; d_prev : list nat;
    d_lits : list Z; d_dists : list Z; d_toks : list token;
    d_bstart : nat; d_blen : nat; d_w : writer }.

(** The bytes of the block. *)
Definition block_data (s : deflator) : list Z := firstn (d_blen s) (skipn (d_bstart s) (d_buf s)).

(** StartCounting and FinishCounting around EncodeBlock (zdeflate.cpp:30-42,
    775-790): the number of bits. *)
Definition counting (w : writer) : writer := mkwr (w_buf w) (w_cnt w) (w_pend w) (w_sent w) true 0.

(** EndBlock (zdeflate.cpp:758-819), with DSIZE = [D].  The last argument of the
    record update is what is left of the block: nothing. *)
Definition block_done (s : deflator) (level skip count : nat) (w : writer) : deflator :=
  mkdef level (d_comp s) skip count (d_good s) (d_lazy s) (d_chain s)
        (d_avail s) (d_dict s) (d_start s) (d_look s) (d_min s) (d_pmatch s) (d_plen s)
        (d_buf s) (d_head s) (d_prev s) (repeat 0%Z 286) (repeat 0%Z 30) []
        (d_bstart s + d_blen s) 0 w.
Definition end_block (eof : bool) (s : deflator) : option deflator :=
  if (d_blen s =? 0) && negb eof then Some s
  else
    let enc k w := encode_block w eof k (block_data s) (d_toks s) (d_lits s) (d_dists s) in
    if d_level s =? 0
    then
      match enc STORED (d_w s) with
      | None => None
      | Some w =>
        if 0 <? d_comp s
        then if S (d_count s) =? d_skip s
             then Some (block_done s (d_comp s) (d_skip s) 1 w)
             else Some (block_done s (d_level s) (d_skip s) (S (d_count s)) w)
        else Some (block_done s (d_level s) (d_skip s) (d_count s) w)
      end
    else
      let cnt := Z.of_nat (w_cnt (d_w s)) in
      let storedLen := (8 * (Z.of_nat (d_blen s) + 4) + ((cnt + 3 + 7) / 8 * 8 - cnt))%Z in
      match enc STATIC (counting (d_w s)) with
      | None => None
      | Some ws =>
        match (if (d_blen s <? 128) && (d_level s <? 8) then Some (2 ^ 64 - 1)%Z
               else match enc DYNAMIC (counting (d_w s)) with
                    | None => None
                    | Some wd => Some (w_count wd)
                    end) with
        | None => None
        | Some dynamicLen =>
          if (storedLen <=? w_count ws)%Z && (storedLen <=? dynamicLen)%Z
          then
            match enc STORED (d_w s) with
            | None => None
            | Some w =>
              if 0 <? d_comp s
              then Some (block_done s (if d_skip s =? 0 then d_level s else 0)
                                    (if d_skip s =? 0 then 1 else Nat.min (2 * d_skip s) 128) (d_count s) w)
              else Some (block_done s (d_level s) (d_skip s) (d_count s) w)
            end
          else
            match enc (if (w_count ws <=? dynamicLen)%Z then STATIC else DYNAMIC) (d_w s) with
            | None => None
            | Some w => Some (block_done s (d_level s) (if 0 <? d_comp s then 0 else d_skip s) (d_count s) w)
            end
        end
      end.

(** LiteralByte and MatchFound (zdeflate.cpp:565-617); [M] is the size of
    m_matchBuffer. *)
Definition add_token (s : deflator) (t : token) (len : nat) : deflator :=
  mkdef (d_level s) (d_comp s) (d_skip s) (d_count s) (d_good s) (d_lazy s) (d_chain s)
        (d_avail s) (d_dict s) (d_start s) (d_look s) (d_min s) (d_pmatch s) (d_plen s)
        (d_buf s) (d_head s) (d_prev s)
        (upd (t_lit t) (nth (t_lit t) (d_lits s) 0 + 1)%Z (d_lits s))
        (if 257 <=? t_lit t then upd (t_dist t) (nth (t_dist t) (d_dists s) 0 + 1)%Z (d_dists s) else d_dists s)
        (d_toks s ++ [t]) (d_bstart s) (d_blen s + len) (d_w s).
Definition room (M : nat) (s : deflator) : option deflator :=
  if length (d_toks s) =? M then end_block false s else Some s.
Definition literal_byte (M : nat) (s : deflator) (b : Z) : option deflator :=
  match room M s with None => None | Some s => Some (add_token s (mktok (Z.to_nat b) 0 0 0) 1) end.
Definition match_found (M : nat) (s : deflator) (distance : Z) (len : nat) : option deflator :=
  match room M s with None => None | Some s => Some (add_token s (match_token distance len) len) end.

(** ComputeHash (zdeflate.cpp:385-389); HMASK is DSIZE - 1. *)
Definition hash3 (D : nat) (a b c : Z) : nat :=
  Z.to_nat (Z.land (Z.lxor (Z.lxor (Z.shiftl a 10) (Z.shiftl b 5)) c) (Z.of_nat D - 1)).
Definition compute_hash (D : nat) (buf : list Z) (p : nat) : nat :=
  hash3 D (nth p buf 0%Z) (nth (p + 1) buf 0%Z) (nth (p + 2) buf 0%Z).

(** InsertString (zdeflate.cpp:442-448). *)
Definition insert_string (D : nat) (s : deflator) : deflator :=
  let p := d_dict s in
  let h := compute_hash D (d_buf s) p in
  mkdef (d_level s) (d_comp s) (d_skip s) (d_count s) (d_good s) (d_lazy s) (d_chain s)
        (d_avail s) (S p) (d_start s) (d_look s) (d_min s) (d_pmatch s) (d_plen s)
        (d_buf s) (upd h p (d_head s)) (upd (p mod D) (nth h (d_head s) 0) (d_prev s))
        (d_lits s) (d_dists s) (d_toks s) (d_bstart s) (d_blen s) (d_w s).
(** The loop at zdeflate.cpp:469-470. *)
Fixpoint insert_strings (fuel D : nat) (s : deflator) : deflator :=
  match fuel with
  | O => s
  | S fuel =>
    if (d_dict s <? d_start s) && (d_dict s + 3 <=? d_start s + d_look s)
    then insert_strings fuel D (insert_string D s) else s
  end.

(** std::mismatch (zdeflate.cpp:415-425): from [k] on, at most [n] bytes. *)
Fixpoint mismatch (n : nat) (buf : list Z) (a b k : nat) : nat :=
  match n with
  | O => k
  | S n => if (nth (a + k) buf 0 =? nth (b + k) buf 0)%Z then mismatch n buf a b (S k) else k
  end.

(** The loop of LongestMatch (zdeflate.cpp:408-438); [chain] is chainLength,
    which goes round at 2^32. *)
Fixpoint longest_loop (fuel D : nat) (buf : list Z) (prev : list nat) (start maxlen limit : nat)
  (current : nat) (chain : Z) (bestLength bestMatch : nat) : nat * nat :=
  match fuel with
  | O => (bestLength, bestMatch)
  | S fuel =>
    if negb (limit <? current) then (bestLength, bestMatch)
    else
      let chain := ((chain - 1) mod 2 ^ 32)%Z in
      if (chain <=? 0)%Z then (bestLength, bestMatch)
      else
        let same k := (nth (start + k) buf 0 =? nth (current + k) buf 0)%Z in
        let next := nth (current mod D) prev 0 in
        if same (bestLength - 1) && same bestLength && same 0 && same 1
        then
          let len := mismatch (maxlen - 3) buf start current 3 in
          if bestLength <? len
          then if len =? maxlen then (len, current)
               else longest_loop fuel D buf prev start maxlen limit next chain len current
          else longest_loop fuel D buf prev start maxlen limit next chain bestLength bestMatch
        else longest_loop fuel D buf prev start maxlen limit next chain bestLength bestMatch
  end.

(** LongestMatch (zdeflate.cpp:391-440): the length and the position.  The loop
    goes to ever smaller positions. *)
Definition longest_match (D : nat) (s : deflator) (plen : nat) : nat * nat :=
  let best := Nat.max plen 2 in
  if d_look s <=? best then (0, 0)
  else
    let limit := if D - 258 <? d_start s then d_start s - (D - 258) else 0 in
    let current := nth (compute_hash D (d_buf s) (d_start s)) (d_head s) 0 in
    let chain := if d_good s <=? plen then Z.shiftr (Z.of_nat (d_chain s)) 2 else Z.of_nat (d_chain s) in
    let '(len, pos) := longest_loop (S current) D (d_buf s) (d_prev s) (d_start s) (Nat.min 258 (d_look s)) limit
                                    current chain best 0 in
    if 0 <? pos then (len, pos) else (0, 0).

(** m_stringStart, m_lookahead, m_matchAvailable, m_previousMatch,
    m_previousLength. *)
Definition set_match (s : deflator) (avail : bool) (start look : nat) (pmatch : Z) (plen : nat) : deflator :=
  mkdef (d_level s) (d_comp s) (d_skip s) (d_count s) (d_good s) (d_lazy s) (d_chain s)
        avail (d_dict s) start look (d_min s) pmatch plen
        (d_buf s) (d_head s) (d_prev s) (d_lits s) (d_dists s) (d_toks s) (d_bstart s) (d_blen s) (d_w s).

(** One round of the loop of ProcessBuffer (zdeflate.cpp:467-512). *)
Definition process_step (D M : nat) (s : deflator) : option deflator :=
  let s := insert_strings (d_start s) D s in
  if d_avail s
  then
    let '(len, pos) := if d_lazy s <=? d_plen s then (0, 0) else longest_match D s (d_plen s) in
    if len =? 0
    then
      match match_found M s ((Z.of_nat (d_start s) - 1 - d_pmatch s) mod 2 ^ 32)%Z (d_plen s) with
      | None => None
      | Some s => Some (set_match s false (d_start s + (d_plen s - 1)) (d_look s - (d_plen s - 1)) (d_pmatch s) (d_plen s))
      end
    else
      match literal_byte M s (nth (d_start s - 1) (d_buf s) 0%Z) with
      | None => None
      | Some s => Some (set_match s true (d_start s + 1) (d_look s - 1) (Z.of_nat pos) len)
      end
  else
    let '(len, pos) := longest_match D s 0 in
    if len =? 0
    then
      match literal_byte M s (nth (d_start s) (d_buf s) 0%Z) with
      | None => None
      | Some s => Some (set_match s false (d_start s + 1) (d_look s - 1) (Z.of_nat pos) len)
      end
    else Some (set_match s true (d_start s + 1) (d_look s - 1) (Z.of_nat pos) len).

Fixpoint process_loop (fuel D M : nat) (s : deflator) : option deflator :=
  match fuel with
  | O => Some s
  | S fuel =>
    if d_min s <? d_look s
    then match process_step D M s with None => None | Some s => process_loop fuel D M s end
    else Some s
  end.

(** ProcessBuffer (zdeflate.cpp:450-519). *)
Definition set_block (s : deflator) (blen : nat) : deflator :=
  mkdef (d_level s) (d_comp s) (d_skip s) (d_count s) (d_good s) (d_lazy s) (d_chain s)
        (d_avail s) (d_dict s) (d_start s) (d_look s) (d_min s) (d_pmatch s) (d_plen s)
        (d_buf s) (d_head s) (d_prev s) (d_lits s) (d_dists s) (d_toks s) (d_bstart s) blen (d_w s).
Definition process_buffer (D M : nat) (s : deflator) : option deflator :=
  if d_level s =? 0
  then Some (set_match (set_block s (d_start s + d_look s - d_bstart s)) false (d_start s + d_look s) 0
                       (d_pmatch s) (d_plen s))
  else
    match process_loop (d_look s) D M s with
    | None => None
    | Some s =>
      if (d_min s =? 0) && d_avail s
      then match literal_byte M s (nth (d_start s - 1) (d_buf s) 0%Z) with
           | None => None
           | Some s => Some (set_match s false (d_start s) (d_look s) (d_pmatch s) (d_plen s))
           end
      else Some s
    end.

(** FillWindow (zdeflate.cpp:346-383): the number of bytes taken. *)
Definition max_block (D : nat) : nat := Nat.min (2 * D) (Z.to_nat 65535).
Definition shift_window (D : nat) (s : deflator) : deflator :=
  mkdef (d_level s) (d_comp s) (d_skip s) (d_count s) (d_good s) (d_lazy s) (d_chain s)
        (d_avail s) (d_dict s - D) (d_start s - D) (d_look s) (d_min s)
        ((d_pmatch s - Z.of_nat D) mod 2 ^ 32)%Z (d_plen s)
        (firstn D (skipn D (d_buf s)) ++ skipn D (d_buf s))
        (map (fun x => x - D) (d_head s)) (map (fun x => x - D) (d_prev s))
        (d_lits s) (d_dists s) (d_toks s) (d_bstart s - D) (d_blen s) (d_w s).
(** memcpy into m_byteBuffer (zdeflate.cpp:380). *)
Definition take_in (s : deflator) (l : list Z) : deflator :=
  mkdef (d_level s) (d_comp s) (d_skip s) (d_count s) (d_good s) (d_lazy s) (d_chain s)
        (d_avail s) (d_dict s) (d_start s) (d_look s + length l) (d_min s) (d_pmatch s) (d_plen s)
        (firstn (d_start s + d_look s) (d_buf s) ++ l ++ skipn (d_start s + d_look s + length l) (d_buf s))
        (d_head s) (d_prev s) (d_lits s) (d_dists s) (d_toks s) (d_bstart s) (d_blen s) (d_w s).
Definition fill_window (D : nat) (s : deflator) (str : list Z) : option (deflator * nat) :=
  match (if max_block D - 258 <=? d_start s
         then match (if d_bstart s <? D then end_block false s else Some s) with
              | None => None
              | Some s => Some (shift_window D s)
              end
         else Some s) with
  | None => None
  | Some s =>
    let accepted := Nat.min (max_block D - (d_start s + d_look s)) (length str) in
    Some (take_in s (firstn accepted str), accepted)
  end.

(** The loop of Put2 (zdeflate.cpp:526-534). *)
Fixpoint put2_loop (fuel D M : nat) (s : deflator) (str : list Z) : option deflator :=
  match str with
  | [] => Some s
  | _ =>
    match fuel with
    | O => None
    | S fuel =>
      match fill_window D s str with
      | None => None
      | Some (s, accepted) =>
        match process_buffer D M s with
        | None => None
        | Some s => put2_loop fuel D M s (skipn accepted str)
        end
      end
    end
  end.

Definition set_min (s : deflator) (m : nat) : deflator :=
  mkdef (d_level s) (d_comp s) (d_skip s) (d_count s) (d_good s) (d_lazy s) (d_chain s)
        (d_avail s) (d_dict s) (d_start s) (d_look s) m (d_pmatch s) (d_plen s)
        (d_buf s) (d_head s) (d_prev s) (d_lits s) (d_dists s) (d_toks s) (d_bstart s) (d_blen s) (d_w s).
Definition set_writer (s : deflator) (w : writer) : deflator :=
  mkdef (d_level s) (d_comp s) (d_skip s) (d_count s) (d_good s) (d_lazy s) (d_chain s)
        (d_avail s) (d_dict s) (d_start s) (d_look s) (d_min s) (d_pmatch s) (d_plen s)
        (d_buf s) (d_head s) (d_prev s) (d_lits s) (d_dists s) (d_toks s) (d_bstart s) (d_blen s) w.

(** Put2 with messageEnd (zdeflate.cpp:537-545), without the Reset. *)
Definition finish (D M : nat) (s : deflator) : option deflator :=
  match process_buffer D M (set_min s 0) with
  | None => None
  | Some s =>
    match end_block true s with
    | None => None
    | Some s => Some (set_writer s (flush_bits (d_w s)))
    end
  end.

(** IsolatedFlush (zdeflate.cpp:551-563). *)
Definition flush (D M : nat) (hard : bool) (s : deflator) : option deflator :=
  match process_buffer D M (set_min s 0) with
  | None => None
  | Some s =>
    match end_block false (set_min s 258) with
    | None => None
    | Some s =>
      if hard
      then match encode_block (d_w s) false STORED (block_data s) (d_toks s) (d_lits s) (d_dists s) with
           | None => None
           | Some w => Some (set_writer s w)
           end
      else Some s
    end
  end.

(** SetDeflateLevel (zdeflate.cpp:316-344); its exception for a level above 9 is
    [None] too. *)
Definition configuration : list (nat * nat * nat) :=
  [(0, 0, 0); (4, 3, 4); (4, 3, 8); (4, 3, 32); (4, 4, 16); (8, 16, 32); (8, 16, 128); (8, 32, 256);
   (32, 128, 1024); (32, 258, 4096)].
Definition set_level (level : nat) (s : deflator) : option deflator :=
  if 9 <? level then None
  else if level =? d_level s then Some s
  else
    match end_block false s with
    | None => None
    | Some s =>
      let '(good, lazy, chain) := nth level configuration (0, 0, 0) in
      Some (mkdef level (d_comp s) (d_skip s) (d_count s) good lazy chain
        (d_avail s) (d_dict s) (d_start s) (d_look s) (d_min s) (d_pmatch s) (d_plen s)
        (d_buf s) (d_head s) (d_prev s) (d_lits s) (d_dists s) (d_toks s) (d_bstart s) (d_blen s) (d_w s))
    end.

(** The constructor, IsolatedInitialize and Reset (zdeflate.cpp:237-314), for a
    level of at most 9.  [buf] and [prev] are what the memory of m_byteBuffer
    and m_prev holds, [pmatch] and [plen] that of the two members that are not
    set. *)
Definition deflator_new (D level : nat) (detect : bool) (buf : list Z) (prev : list nat) (pmatch : Z) (plen : nat)
  : deflator :=
  let '(good, lazy, chain) := nth level configuration (0, 0, 0) in
  mkdef level (if detect then level else 0) 0 1 good lazy chain
        false 0 0 0 258 pmatch plen buf (repeat 0 D) prev (repeat 0%Z 286) (repeat 0%Z 30) [] 0 0 writer_new.

(** A message: Put, Flush and SetDeflateLevel calls in any order, then its end. *)
Inductive request : Type :=
| RPut (piece : list Z)
| RFlush (hard : bool)
| RLevel (level : nat).
Definition request_step (D M : nat) (s : deflator) (r : request) : option deflator :=
  match r with
  | RPut piece => put2_loop (length piece) D M s piece
  | RFlush hard => flush D M hard s
  | RLevel level => set_level level s
  end.
Fixpoint requests (D M : nat) (s : deflator) (l : list request) : option deflator :=
  match l with
  | [] => Some s
  | r :: l => match request_step D M s r with None => None | Some s => requests D M s l end
  end.
(** Reset(false) (zdeflate.cpp:289-314).  The output of the message is taken
    away. *)
Definition reset (s : deflator) : deflator :=
  mkdef (d_level s) (d_comp s) 0 1 (d_good s) (d_lazy s) (d_chain s)
        false 0 0 0 258 (d_pmatch s) (d_plen s) (d_buf s) (map (fun _ => 0) (d_head s)) (d_prev s)
        (repeat 0%Z 286) (repeat 0%Z 30) [] 0 0
        (mkwr (w_buf (d_w s)) (w_cnt (d_w s)) (w_pend (d_w s)) [] (w_counting (d_w s)) (w_count (d_w s))).

(** One message and the next ones: what is put out for each. *)
Definition message (D : nat) (s : deflator) (l : list request) : option (deflator * list Z) :=
  match requests D (D / 2) s l with
  | None => None
  | Some s => match finish D (D / 2) s with None => None | Some s => Some (reset s, w_sent (d_w s)) end
  end.
Fixpoint messages (D : nat) (s : deflator) (ms : list (list request)) : option (list (list Z)) :=
  match ms with
  | [] => Some []
  | m :: ms =>
    match message D s m with
    | None => None
    | Some (s, out) => match messages D s ms with None => None | Some outs => Some (out :: outs) end
    end
  end.
