(** InflateModel: Inflator (zinflate.cpp:224-658, zinflate.h:94-196), for one
    message in any number of pieces, with m_repeat false.  ZlibDecompressor and
    Gunzip, which put headers and trailers around it, are not modelled, nor is
    IsolatedFlush. *)
From Coq Require Import ZArith List Bool Arith.
From Verif Require Import Base BitioModel HuffmanModel WindowModel.
Import ListNotations.
Open Scope nat_scope.

(** How a call ends: normally; with BadBlockErr or BadDistanceErr; with
    UnexpectedEndErr; or after something C++ does not define or the code
    excludes by an assertion: an access outside of the window or of the array
    of code lengths, SkipBits below zero, or a loop that does not end. *)
Inductive outcome (A : Type) : Type :=
| Fine (a : A)
| BadBlock
| UnexpectedEnd
| Wild.
Arguments Fine {A} _.
Arguments BadBlock {A}.
Arguments UnexpectedEnd {A}.
Arguments Wild {A}.

Definition bind {A B} (x : outcome A) (f : A -> outcome B) : outcome B :=
  match x with
  | Fine a => f a
  | BadBlock => BadBlock
  | UnexpectedEnd => UnexpectedEnd
  | Wild => Wild
  end.
Notation "x <- m ;; f" := (bind m (fun x => f)) (at level 61, m at next level, right associativity).
Notation "' p <- m ;; f" := (bind m (fun x => match x with p => f end))
  (at level 61, p pattern, m at next level, right associativity).

(** GetBits (zinflate.cpp:53-58) with the assertion of SkipBits
    (zinflate.cpp:48): there must be enough bits. *)
Definition getz (r : reader) (n : nat) : outcome (reader * Z) :=
  if r_cnt (fst (fill_buffer r n)) <? n then Wild else Fine (get_bits r n).
Definition get (r : reader) (n : nat) : outcome (reader * nat) :=
  '(r, v) <- getz r n ;; Fine (r, Z.to_nat v).

(** if (!m_reader.FillBuffer(n)) throw UnexpectedEndErr() (zinflate.cpp:376 and
    others). *)
Definition need (r : reader) (n : nat) : outcome reader :=
  if snd (fill_buffer r n) then Fine (fst (fill_buffer r n)) else UnexpectedEnd.

Inductive state : Type := PRE_STREAM | WAIT_HEADER | DECODING_BODY | POST_STREAM | AFTER_END.
Inductive next : Type := LITERAL | LENGTH_BITS | DISTANCE | DISTANCE_BITS.

(** The members of Inflator.  m_inQueue is [r_rest] of the reader; [f_after] is
    what was passed on after the end of the stream. *)
Record inflator : Type := mkinf
  { f_state : state; f_rd : reader; f_win : win; f_eof : bool; f_type : nat; f_stored : nat;
    f_next : next; f_literal : nat; f_distance : nat;
    f_lit : option decoder; f_dist : option decoder;
    f_flit : option decoder; f_fdist : option decoder; f_after : list Z }.

(** ** DecodeHeader *)

(** border (zinflate.cpp:407-408). *)
Definition border : list nat := [16; 17; 18; 0; 8; 7; 9; 6; 10; 5; 11; 4; 12; 3; 13; 2; 14; 1; 15].

(** zinflate.cpp:409-414. *)
Fixpoint read_border (r : reader) (idx cl : list nat) : outcome (reader * list nat) :=
  match idx with
  | [] => Fine (r, cl)
  | b :: idx => '(r, v) <- get r 3 ;; read_border r idx (upd b v cl)
  end.

(** How many entries a symbol of the code length code stands for, and which
    (zinflate.cpp:428-457); [acc] are the entries before it. *)
Definition repeat_of (k : nat) (r : reader) (acc : list nat) : outcome (reader * nat * nat) :=
  if k <=? 15 then Fine (r, 1, k)
  else match k with
  | 16 => r <- need r 2 ;; '(r, v) <- get r 2 ;;
          match acc with [] => BadBlock | _ => Fine (r, 3 + v, last acc 0) end
  | 17 => r <- need r 3 ;; '(r, v) <- get r 3 ;; Fine (r, 3 + v, 0)
  | 18 => r <- need r 7 ;; '(r, v) <- get r 7 ;; Fine (r, 11 + v, 0)
  | _ => Fine (r, 0, 0)
  end.

(** The loop at zinflate.cpp:421-462, up to [n] entries.  codeLengths has
    286+32 = 318 (zinflate.cpp:406).  [fuel] bounds the rounds. *)
Fixpoint read_lengths (fuel : nat) (cd : decoder) (r : reader) (acc : list nat) (n : nat)
  : outcome (reader * list nat) :=
  match fuel with
  | O => Wild
  | S fuel =>
    if n <=? length acc then Fine (r, acc)
    else match decode_symbol cd r with
    | None => Wild
    | Some (_, _, None) => UnexpectedEnd
    | Some (cd, r, Some k) =>
      '(r, count, v) <- repeat_of k r acc ;;
      if n <? length acc + count then BadBlock
      else if 318 <? length acc + count then Wild
      else read_lengths fuel cd r (acc ++ repeat v count) n
    end
  end.

(** HuffmanDecoder::Initialize inside the try block (zinflate.cpp:416-475). *)
Definition init_decoder (lens : list nat) : outcome decoder :=
  match dec_init lens with Some d => Fine d | None => BadBlock end.

(** The dynamic header (zinflate.cpp:397-476): the two decoders; the distance
    decoder is left alone when there are no distance codes. *)
Definition dynamic_header (r : reader) (old : option decoder) : outcome (reader * decoder * option decoder) :=
  r <- need r 14 ;;
  '(r, hlit) <- get r 5 ;;
  '(r, hdist) <- get r 5 ;;
  '(r, hclen) <- get r 4 ;;
  '(r, cl) <- read_border r (firstn (hclen + 4) border) (repeat 0 19) ;;
  cd <- init_decoder cl ;;
  let n := hlit + 257 + hdist + 1 in
  '(r, lens) <- read_lengths (S n) cd r [] n ;;
  lit <- init_decoder (firstn (hlit + 257) lens) ;;
  if (hdist =? 0) && (nth (hlit + 257) lens 0 =? 0)
  then if hlit =? 0 then Fine (r, lit, old) else BadBlock
  else dist <- init_decoder (skipn (hlit + 257) lens) ;; Fine (r, lit, Some dist).

(** Inflator::DecodeHeader (zinflate.cpp:374-480). *)
Definition decode_header (s : inflator) : outcome inflator :=
  r <- need (f_rd s) 3 ;;
  '(r, e) <- get r 1 ;;
  '(r, t) <- get r 2 ;;
  let eof := negb (e =? 0) in
  match t with
  | 0 =>
    let r := skip_bits r (r_cnt r mod 8) in
    r <- need r 32 ;;
    '(r, len) <- getz r 16 ;;
    '(r, nlen) <- getz r 16 ;;
    if (nlen =? 65535 - len)%Z
    then Fine (mkinf DECODING_BODY r (f_win s) eof t (Z.to_nat len) (f_next s) (f_literal s) (f_distance s)
                     (f_lit s) (f_dist s) (f_flit s) (f_fdist s) (f_after s))
    else BadBlock
  | 1 => Fine (mkinf DECODING_BODY r (f_win s) eof t (f_stored s) LITERAL (f_literal s) (f_distance s)
                     (f_lit s) (f_dist s) (f_flit s) (f_fdist s) (f_after s))
  | 2 => '(r, lit, dist) <- dynamic_header r (f_dist s) ;;
         Fine (mkinf DECODING_BODY r (f_win s) eof t (f_stored s) LITERAL (f_literal s) (f_distance s)
                     (Some lit) dist (f_flit s) (f_fdist s) (f_after s))
  | _ => BadBlock
  end.

(** ** DecodeBody *)

(** zinflate.cpp:505-519. *)
Definition length_starts : list nat :=
  [3; 4; 5; 6; 7; 8; 9; 10; 11; 13; 15; 17; 19; 23; 27; 31;
   35; 43; 51; 59; 67; 83; 99; 115; 131; 163; 195; 227; 258].
Definition length_extra : list nat :=
  [0; 0; 0; 0; 0; 0; 0; 0; 1; 1; 1; 1; 2; 2; 2; 2; 3; 3; 3; 3; 4; 4; 4; 4; 5; 5; 5; 5; 0].
Definition distance_starts : list Z :=
  [1; 2; 3; 4; 5; 7; 9; 13; 17; 25; 33; 49; 65; 97; 129; 193; 257; 385; 513; 769;
   1025; 1537; 2049; 3073; 4097; 6145; 8193; 12289; 16385; 24577]%Z.
Definition distance_extra : list nat :=
  [0; 0; 0; 0; 1; 1; 2; 2; 3; 3; 4; 4; 5; 5; 6; 6; 7; 7; 8; 8; 9; 9; 10; 10; 11; 11; 12; 12; 13; 13].

(** CreateFixedLiteralDecoder and CreateFixedDistanceDecoder
    (zinflate.cpp:615-632). *)
Definition fixed_literals : list nat := repeat 8 144 ++ repeat 9 112 ++ repeat 7 24 ++ repeat 8 8.
Definition fixed_distances : list nat := repeat 5 32.

(** GetLiteralDecoder and GetDistanceDecoder (zinflate.cpp:634-658). *)
Definition literal_decoder (s : inflator) : option decoder :=
  if f_type s =? 1
  then match f_flit s with Some d => Some d | None => dec_init fixed_literals end
  else f_lit s.
Definition distance_decoder (s : inflator) : option decoder :=
  if f_type s =? 1
  then match f_fdist s with Some d => Some d | None => dec_init fixed_distances end
  else f_dist s.

(** The object after the decoder [d] was used. *)
Definition set_lit (s : inflator) (d : decoder) : inflator :=
  if f_type s =? 1
  then mkinf (f_state s) (f_rd s) (f_win s) (f_eof s) (f_type s) (f_stored s) (f_next s) (f_literal s)
             (f_distance s) (f_lit s) (f_dist s) (Some d) (f_fdist s) (f_after s)
  else mkinf (f_state s) (f_rd s) (f_win s) (f_eof s) (f_type s) (f_stored s) (f_next s) (f_literal s)
             (f_distance s) (Some d) (f_dist s) (f_flit s) (f_fdist s) (f_after s).
Definition set_dist (s : inflator) (d : decoder) : inflator :=
  if f_type s =? 1
  then mkinf (f_state s) (f_rd s) (f_win s) (f_eof s) (f_type s) (f_stored s) (f_next s) (f_literal s)
             (f_distance s) (f_lit s) (f_dist s) (f_flit s) (Some d) (f_after s)
  else mkinf (f_state s) (f_rd s) (f_win s) (f_eof s) (f_type s) (f_stored s) (f_next s) (f_literal s)
             (f_distance s) (f_lit s) (Some d) (f_flit s) (f_fdist s) (f_after s).
Definition set_rd (s : inflator) (r : reader) : inflator :=
  mkinf (f_state s) r (f_win s) (f_eof s) (f_type s) (f_stored s) (f_next s) (f_literal s)
        (f_distance s) (f_lit s) (f_dist s) (f_flit s) (f_fdist s) (f_after s).
Definition set_win (s : inflator) (w : win) : inflator :=
  mkinf (f_state s) (f_rd s) w (f_eof s) (f_type s) (f_stored s) (f_next s) (f_literal s)
        (f_distance s) (f_lit s) (f_dist s) (f_flit s) (f_fdist s) (f_after s).
Definition set_next (s : inflator) (n : next) (literal distance : nat) : inflator :=
  mkinf (f_state s) (f_rd s) (f_win s) (f_eof s) (f_type s) (f_stored s) n literal
        distance (f_lit s) (f_dist s) (f_flit s) (f_fdist s) (f_after s).
Definition set_state (s : inflator) (x : state) : inflator :=
  mkinf x (f_rd s) (f_win s) (f_eof s) (f_type s) (f_stored s) (f_next s) (f_literal s)
        (f_distance s) (f_lit s) (f_dist s) (f_flit s) (f_fdist s) (f_after s).

(** OutputByte and the others can fail. *)
Definition of_res (x : res win) : outcome win :=
  match x with Ok w => Fine w | Throw => BadBlock | Oob => Wild end.

(** What one round of the decoding does. *)
Inductive progress : Type :=
| Continue (s : inflator)
| Suspend (s : inflator)
| BlockEnd (s : inflator).

(** The four places of the loop at zinflate.cpp:524-578.  The C++ code jumps
    into the loop with m_nextDecode and runs on from there; here each place is
    a step and m_nextDecode says which one is next. *)
Definition body_step (s : inflator) : outcome progress :=
  match f_next s with
  | LITERAL =>
    match literal_decoder s with
    | None => Wild
    | Some d =>
      match decode_symbol d (f_rd s) with
      | None => Wild
      | Some (d, r, None) => Fine (Suspend (set_rd (set_lit s d) r))
      | Some (d, r, Some v) =>
        let s := set_rd (set_lit s d) r in
        if v <? 256
        then w <- of_res (output_byte (f_win s) (Z.of_nat v)) ;; Fine (Continue (set_win s w))
        else if v =? 256 then Fine (BlockEnd s)
        else if 285 <? v then BadBlock
        else Fine (Continue (set_next s LENGTH_BITS v (f_distance s)))
      end
    end
  | LENGTH_BITS =>
    let bits := nth (f_literal s - 257) length_extra 0 in
    if snd (fill_buffer (f_rd s) bits)
    then '(r, v) <- get (f_rd s) bits ;;
         Fine (Continue (set_next (set_rd s r) DISTANCE (v + nth (f_literal s - 257) length_starts 0) (f_distance s)))
    else Fine (Suspend (set_rd s (fst (fill_buffer (f_rd s) bits))))
  | DISTANCE =>
    match distance_decoder s with
    | None => Wild
    | Some d =>
      match decode_symbol d (f_rd s) with
      | None => Wild
      | Some (d, r, None) => Fine (Suspend (set_rd (set_dist s d) r))
      | Some (d, r, Some v) => Fine (Continue (set_next (set_rd (set_dist s d) r) DISTANCE_BITS (f_literal s) v))
      end
    end
  | DISTANCE_BITS =>
    if 30 <=? f_distance s then BadBlock
    else
      let bits := nth (f_distance s) distance_extra 0 in
      if snd (fill_buffer (f_rd s) bits)
      then '(r, v) <- get (f_rd s) bits ;;
           let dist := v + Z.to_nat (nth (f_distance s) distance_starts 0%Z) in
           w <- of_res (output_past (f_literal s) dist (f_win s)) ;;
           Fine (Continue (set_next (set_win (set_rd s r) w) LITERAL (f_literal s) dist))
      else Fine (Suspend (set_rd s (fst (fill_buffer (f_rd s) bits))))
  end.

Fixpoint body_run (fuel : nat) (s : inflator) : outcome (inflator * bool) :=
  match fuel with
  | O => Wild
  | S fuel =>
    p <- body_step s ;;
    match p with
    | Continue s => body_run fuel s
    | Suspend s => Fine (s, false)
    | BlockEnd s => Fine (s, true)
    end
  end.

(** The stored block (zinflate.cpp:487-502).  The loop there goes through the
    pieces of the queue; here they are one. *)
Definition stored_run (s : inflator) : outcome (inflator * bool) :=
  let rest := r_rest (f_rd s) in
  match rest with
  | [] => Fine (s, false)
  | _ =>
    let size := Nat.min (f_stored s) (length rest) in
    w <- of_res (output_string size (f_win s) (firstn size rest)) ;;
    Fine (mkinf (f_state s) (mkrd (r_buf (f_rd s)) (r_cnt (f_rd s)) (skipn size rest)) w (f_eof s)
                (f_type s) (f_stored s - size) (f_next s) (f_literal s) (f_distance s)
                (f_lit s) (f_dist s) (f_flit s) (f_fdist s) (f_after s),
          f_stored s - size =? 0)
  end.

(** "undo too much lookahead" (zinflate.cpp:588-596). *)
Fixpoint take_bytes (k : nat) (r : reader) : reader * list Z :=
  match k with
  | O => (r, [])
  | S k => let (r, v) := get_bits r 8 in
           let (r, l) := take_bytes k r in (r, v :: l)
  end.
Definition unget (r : reader) : reader :=
  let r := skip_bits r (r_cnt r mod 8) in
  let (r, l) := take_bytes (r_cnt r / 8) r in
  mkrd (r_buf r) (r_cnt r) (l ++ r_rest r).

(** The bits a reader still has, which bounds the loops. *)
Definition bits_left (r : reader) : nat := r_cnt r + 8 * length (r_rest r).

(** Inflator::DecodeBody (zinflate.cpp:482-603). *)
Definition decode_body (s : inflator) : outcome (inflator * bool) :=
  '(s, blockEnd) <- (if f_type s =? 0 then stored_run s else body_run (4 * bits_left (f_rd s) + 4) s) ;;
  if negb blockEnd then Fine (s, false)
  else if f_eof s
  then Fine (set_state (set_rd (set_win s (flush_output (f_win s))) (unget (f_rd s))) POST_STREAM, true)
  else Fine (set_state s WAIT_HEADER, true).

(** ** ProcessInput *)

(** MAX_HEADER_SIZE (zinflate.cpp:348). *)
Definition max_header_size : nat := (3 + 5 + 5 + 4 + 19 * 7 + 286 * 15 + 19 * 15 + 7) / 8.

(** Inflator::ProcessInput (zinflate.cpp:329-372); [init] is what
    m_window.New allocates. *)
Fixpoint process_input (fuel : nat) (init : list Z) (flush : bool) (s : inflator) : outcome inflator :=
  match fuel with
  | O => Wild
  | S fuel =>
    match f_state s with
    | PRE_STREAM =>
      process_input fuel init flush
        (set_win (set_state s WAIT_HEADER) (mkwin init 0 0 false (wsent (f_win s))))
    | WAIT_HEADER =>
      if length (r_rest (f_rd s)) <? (if flush then 1 else max_header_size) then Fine s
      else s <- decode_header s ;; process_input fuel init flush s
    | DECODING_BODY =>
      '(s, b) <- decode_body s ;;
      if (b : bool) then process_input fuel init flush s else Fine s
    | POST_STREAM =>
      let s := set_state s AFTER_END in
      match r_rest (f_rd s) with
      | [] => Fine s
      | _ => process_input fuel init flush s
      end
    | AFTER_END =>
      Fine (mkinf AFTER_END (mkrd (r_buf (f_rd s)) (r_cnt (f_rd s)) []) (f_win s) (f_eof s) (f_type s)
                  (f_stored s) (f_next s) (f_literal s) (f_distance s) (f_lit s) (f_dist s)
                  (f_flit s) (f_fdist s) (f_after s ++ r_rest (f_rd s)))
    end
  end.

(** Inflator::Put2 (zinflate.cpp:301-315). *)
Definition put2 (init : list Z) (s : inflator) (piece : list Z) (message_end : bool) : outcome inflator :=
  let r := f_rd s in
  let s := set_rd s (mkrd (r_buf r) (r_cnt r) (r_rest r ++ piece)) in
  s <- process_input (2 * bits_left (f_rd s) + 6) init message_end s ;;
  if message_end
  then match f_state s with
       | PRE_STREAM | AFTER_END => Fine s
       | _ => UnexpectedEnd
       end
  else Fine s.

(** The constructor (zinflate.cpp:224-232). *)
Definition inflator_new : inflator :=
  mkinf PRE_STREAM (mkrd 0 0 []) (mkwin [] 0 0 false []) false 255 (Z.to_nat 65535) LITERAL 0 0 None None None None [].

(** A message in pieces, the last of which ends it. *)
Fixpoint put_pieces (init : list Z) (s : inflator) (pieces : list (list Z)) : outcome inflator :=
  match pieces with
  | [] => Fine s
  | p :: pieces => s <- put2 init s p false ;; put_pieces init s pieces
  end.
Definition inflate (init : list Z) (pieces : list (list Z)) (last : list Z) : outcome (list Z) :=
  s <- put_pieces init inflator_new pieces ;;
  s <- put2 init s last true ;;
  Fine (wsent (f_win s) ++ f_after s).
