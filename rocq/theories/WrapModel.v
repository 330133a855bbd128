(** WrapModel: the zlib and gzip formats around Deflator and Inflator (zlib.cpp,
    gzip.cpp, and the hooks of zinflate.cpp:329-372 and zdeflate.cpp:450-549). *)
From Coq Require Import ZArith List Bool Arith.
From Verif Require Import Base BitioModel WindowModel ChecksumModel InflateModel DeflateModel.
Import ListNotations.
Open Scope nat_scope.

(** The exceptions: those of the two formats (zlib.h:40-43, gzip.h:86-92), and
    those of Inflator; [EWild] is an access outside of an array. *)
Inductive werr : Type :=
| HeaderErr | UnsupportedAlgorithm | UnsupportedPresetDictionary | Adler32Err
| TailErr | CrcErr | LengthErr | EBad | EEnd | EWild.
Inductive wout (A : Type) : Type :=
| Got (a : A)
| Refused (e : werr).
Arguments Got {A} _.
Arguments Refused {A} _.
Definition wbind {A B} (x : wout A) (f : A -> wout B) : wout B :=
  match x with Got a => f a | Refused e => Refused e end.
Definition lift {A} (x : outcome A) : wout A :=
  match x with Fine a => Got a | BadBlock => Refused EBad | UnexpectedEnd => Refused EEnd | Wild => Refused EWild end.

(** ** The decompressors *)

(** The states WAIT_HEADER and DECODING_BODY of Inflator::ProcessInput
    (zinflate.cpp:346-357): block after block, up to the end of the stream. *)
Fixpoint blocks (fuel : nat) (flush : bool) (s : inflator) : outcome inflator :=
  match fuel with
  | O => Wild
  | S fuel =>
    match f_state s with
    | WAIT_HEADER =>
      if length (r_rest (f_rd s)) <? (if flush then 1 else max_header_size) then Fine s
      else InflateModel.bind (decode_header s) (fun s => blocks fuel flush s)
    | DECODING_BODY =>
      InflateModel.bind (decode_body s) (fun x => let (s, b) := (x : inflator * bool) in
        if (b : bool) then blocks fuel flush s else Fine s)
    | _ => Fine s
    end
  end.

Definition set_rest (s : inflator) (l : list Z) : inflator :=
  set_rd s (mkrd (r_buf (f_rd s)) (r_cnt (f_rd s)) l).

Section Wrapped.
(** What the class says about its stream.  [hdr] is ProcessPrestreamHeader on
    what is in m_inQueue: the window size, what the header said, and what stays
    in the queue.  [tail] is ProcessPoststreamTail, given all of the data that
    went through ProcessDecompressedData.  [hmax] and [tmax] are
    MaxPrestreamHeaderSize and MaxPoststreamTailSize.  [init] is what the memory
    for a window holds. *)
Variable M : Type.
Variable hdr : list Z -> wout (nat * M * list Z).
Variable tail : list Z -> list Z -> wout (list Z).
Variables hmax tmax : nat.
Variable init : nat -> list Z.

(** A decompressor; what the header said is there once it was read. *)
Definition wstate : Type := inflator * option M.

(** zinflate.cpp:335-345 *)
Definition pre_stream (flush : bool) (z : wstate) : wout wstate :=
  let (s, m) := z in
  match f_state s with
  | PRE_STREAM =>
    if negb flush && (length (r_rest (f_rd s)) <? hmax) then Got z
    else wbind (hdr (r_rest (f_rd s))) (fun x => let '(size, m, rest) := x in
           Got (set_win (set_state (set_rest s rest) WAIT_HEADER)
                        (mkwin (init size) 0 0 false (wsent (f_win s))), Some m))
  | _ => Got z
  end.
(** zinflate.cpp:358-366, with m_repeat false *)
Definition post_stream (flush : bool) (z : wstate) : wout wstate :=
  let (s, m) := z in
  match f_state s with
  | POST_STREAM =>
    if negb flush && (length (r_rest (f_rd s)) <? tmax) then Got z
    else wbind (tail (wsent (f_win s)) (r_rest (f_rd s))) (fun rest =>
           Got (set_state (set_rest s rest) AFTER_END, m))
  | _ => Got z
  end.
(** zinflate.cpp:367-369 *)
Definition after_end (z : wstate) : wstate :=
  let (s, m) := z in
  match f_state s with
  | AFTER_END =>
    (mkinf AFTER_END (mkrd (r_buf (f_rd s)) (r_cnt (f_rd s)) []) (f_win s) (f_eof s) (f_type s)
           (f_stored s) (f_next s) (f_literal s) (f_distance s) (f_lit s) (f_dist s)
           (f_flit s) (f_fdist s) (f_after s ++ r_rest (f_rd s)), m)
  | _ => z
  end.
(** Inflator::ProcessInput (zinflate.cpp:329-372).  With m_repeat false the state
    only moves on, so the loop is its cases in their order; a case that returns
    leaves a state that the later ones pass over. *)
Definition wprocess (flush : bool) (z : wstate) : wout wstate :=
  wbind (pre_stream flush z) (fun z =>
  wbind (lift (blocks (2 * bits_left (f_rd (fst z)) + 6) flush (fst z))) (fun s =>
  wbind (post_stream flush (s, snd z)) (fun z => Got (after_end z)))).
(** Inflator::Put2 (zinflate.cpp:301-315) *)
Definition wput (z : wstate) (piece : list Z) (message_end : bool) : wout wstate :=
  let (s, m) := z in
  wbind (wprocess message_end (set_rest s (r_rest (f_rd s) ++ piece), m)) (fun z =>
  if message_end
  then match f_state (fst z) with
       | PRE_STREAM | AFTER_END => Got z
       | _ => Refused EEnd
       end
  else Got z).
Fixpoint wput_pieces (z : wstate) (pieces : list (list Z)) : wout wstate :=
  match pieces with
  | [] => Got z
  | p :: pieces => wbind (wput z p false) (fun z => wput_pieces z pieces)
  end.
(** A message in pieces, the last of which ends it: the data, what comes after
    the stream, which is passed on too, and what the header said. *)
Definition decompress (pieces : list (list Z)) (last : list Z) : wout (list Z * list Z * option M) :=
  wbind (wput_pieces (inflator_new, None) pieces) (fun z =>
  wbind (wput z last true) (fun z =>
  Got (wsent (f_win (fst z)), f_after (fst z), snd z))).
End Wrapped.

(** ** Zlib *)

(** m_adler32 after Restart and the Updates with the pieces of [data], as Final
    writes it; they are one piece here: C19 says that the pieces do not matter.
    [u] is the size of unsigned long. *)
Definition adler_of (u : Z) (data : list Z) : list Z :=
  match snd (ad_final (ad_update u ad_reset data) 4) with Some l => l | None => [] end.

(** ZlibDecompressor::ProcessPrestreamHeader (zlib.cpp:56-76) and
    GetLog2WindowSize (zlib.h:50); what the header said is m_log2WindowSize. *)
Definition zlib_header (q : list Z) : wout (nat * nat * list Z) :=
  match q with
  | cmf :: flags :: rest =>
    if negb ((cmf * 256 + flags) mod 31 =? 0)%Z then Refused HeaderErr
    else if negb (Z.land cmf 15 =? 8)%Z then Refused UnsupportedAlgorithm
    else if negb (Z.land flags 32 =? 0)%Z then Refused UnsupportedPresetDictionary
    else let k := 8 + Z.to_nat (Z.shiftr cmf 4) in Got (2 ^ k, k, rest)
  | _ => Refused HeaderErr
  end.

(** VerifyBufsEqual through HashTransformation::TruncatedVerify (cryptlib.cpp:406-413) *)
Fixpoint same_bytes (a b : list Z) : bool :=
  match a, b with
  | [], [] => true
  | x :: a, y :: b => (x =? y)%Z && same_bytes a b
  | _, _ => false
  end.

(** ZlibDecompressor::ProcessPoststreamTail (zlib.cpp:84-91) *)
Definition zlib_tail (u : Z) (data q : list Z) : wout (list Z) :=
  if length q <? 4 then Refused Adler32Err
  else if same_bytes (adler_of u data) (firstn 4 q) then Got (skipn 4 q)
  else Refused Adler32Err.

(** zlib.h:49-56 *)
Definition zlib_decompress (u : Z) (init : nat -> list Z) (pieces : list (list Z)) (last : list Z) :=
  decompress nat zlib_header (zlib_tail u) 2 4 init pieces last.

(** RoundUpToMultipleOf(n, 31) (misc.h:1384-1398); the sums fit in 16 bits here. *)
Definition round_up_31 (n : Z) : Z := ((n + 30) - (n + 30) mod 31)%Z.
(** ZlibCompressor::GetCompressionLevel (zlib.cpp:43-47) *)
Definition compression_level (level : nat) : Z := nth level [0; 1; 1; 1; 2; 2; 2; 2; 2; 3]%Z 0%Z.
(** ZlibCompressor::WritePrestreamHeader (zlib.cpp:21-29); [k] is
    GetLog2WindowSize(). *)
Definition zlib_prefix (k level : nat) : list Z :=
  let cmf := (Z.lor 8 (Z.shiftl (Z.of_nat (k - 8)) 4) mod 256)%Z in
  let flags := (Z.shiftl (compression_level level) 6 mod 256)%Z in
  be_bytes 2 (round_up_31 (cmf * 256 + flags)).

(** The bytes given to ProcessUncompressedData in a message, in order. *)
Fixpoint put_bytes (m : list request) : list Z :=
  match m with
  | [] => []
  | RPut piece :: m => piece ++ put_bytes m
  | _ :: m => put_bytes m
  end.
(** The level when WritePrestreamHeader is called: by the first ProcessBuffer of
    the message (zdeflate.cpp:452-456), that is by the first Put that is not
    empty, the first flush, or the end (zdeflate.cpp:526-560). *)
Fixpoint header_level (level : nat) (m : list request) : nat :=
  match m with
  | RLevel l :: m => header_level l m
  | RPut [] :: m => header_level level m
  | _ => level
  end.

(** A message of ZlibCompressor (zdeflate.cpp:521-549 with the hooks of
    zlib.cpp:21-41): header, what Deflator puts out, tail.  The header goes out
    first because nothing is written before the first ProcessBuffer
    (nothing_before_header in WrapFormat), and the tail last because
    FlushBitBuffer has emptied the buffers of the writer. *)
Definition zlib_message (u : Z) (k : nat) (s : deflator) (m : list request) : option (deflator * list Z) :=
  match message (2 ^ k) s m with
  | None => None
  | Some (s', out) => Some (s', zlib_prefix k (header_level (d_level s) m) ++ out ++ adler_of u (put_bytes m))
  end.
Fixpoint zlib_messages (u : Z) (k : nat) (s : deflator) (ms : list (list request)) : option (list (list Z)) :=
  match ms with
  | [] => Some []
  | m :: ms =>
    match zlib_message u k s m with
    | None => None
    | Some (s, out) => match zlib_messages u k s ms with None => None | Some outs => Some (out :: outs) end
    end
  end.

(** ** Gzip *)

(** m_crc after Restart and the Updates with the pieces of [data], as Final
    writes it (C67: neither the pieces nor their addresses matter). *)
Definition crc_of (data : list Z) : list Z :=
  match snd (crc_final (crc_update crc32_tab 0xffffffff 0 data) 4) with Some l => l | None => [] end.

(** What takes something from the front of m_inQueue: [None] when there is too
    little or the wrong thing there. *)
Definition parser (A : Type) : Type := list Z -> option (A * list Z).
Definition pret {A} (a : A) : parser A := fun q => Some (a, q).
Definition pbind {A B} (f : parser A) (g : A -> parser B) : parser B :=
  fun q => match f q with Some (a, q) => g a q | None => None end.
Definition check (b : bool) : parser unit := fun q => if b then Some (tt, q) else None.
(** m_inQueue.Get(b) *)
Definition get1 : parser Z := fun q => match q with [] => None | b :: q => Some (b, q) end.
(** m_inQueue.Get(..., n) == n, Skip(n) == n *)
Definition take (n : nat) : parser (list Z) :=
  fun q => if length q <? n then None else Some (firstn n q, skipn n q).
(** The loops at gzip.cpp:139-144 and 149-154: up to a zero byte. *)
Fixpoint get_string (q : list Z) : option (list Z * list Z) :=
  match q with
  | [] => None
  | b :: q =>
    if (b =? 0)%Z then Some ([], q)
    else match get_string q with Some (l, q) => Some (b :: l, q) | None => None end
  end.
Definition when (b : bool) (f : parser (list Z)) : parser (list Z) := if b then f else pret [].

(** GetFiletime, GetFilename, GetComment *)
Record meta : Type := mkmeta { g_time : Z; g_name : list Z; g_comment : list Z }.

(** gzip.cpp:130-135 *)
Definition skip_extra : parser (list Z) := pbind (take 2) (fun len => take (Z.to_nat (le_val len))).
(** Gunzip::ProcessPrestreamHeader (gzip.cpp:110-156); every error is HeaderErr.
    The flags ENCRYPTED | CONTINUED, EXTRA_FIELDS, FILENAME and COMMENTS are in
    gzip.h:125-126. *)
Definition gunzip_fields : parser meta :=
  pbind get1 (fun m1 => pbind get1 (fun m2 => pbind (check ((m1 =? 0x1f) && (m2 =? 0x8b))%Z) (fun _ =>
  pbind get1 (fun b => pbind (check (b =? 8)%Z) (fun _ =>
  pbind get1 (fun flags => pbind (check (Z.land flags (Z.lor 32 2) =? 0)%Z) (fun _ =>
  pbind (take 4) (fun time =>
  pbind (take 2) (fun _ =>
  pbind (when (negb (Z.land flags 4 =? 0)%Z) skip_extra) (fun _ =>
  pbind (when (negb (Z.land flags 8 =? 0)%Z) get_string) (fun name =>
  pbind (when (negb (Z.land flags 16 =? 0)%Z) get_string) (fun comment =>
  pret (mkmeta (le_val time) name comment))))))))))))).
(** The window is that of Inflator (zinflate.h:120). *)
Definition gunzip_header (q : list Z) : wout (nat * meta * list Z) :=
  match gunzip_fields q with
  | Some (m, q) => Got (2 ^ 15, m, q)
  | None => Refused HeaderErr
  end.
(** Gunzip::ProcessPoststreamTail (gzip.cpp:165-178); m_length is a word32. *)
Definition gunzip_tail (data q : list Z) : wout (list Z) :=
  match take 4 q with
  | None => Refused TailErr
  | Some (crc, q) =>
    if negb (same_bytes (crc_of data) crc) then Refused CrcErr
    else match take 4 q with
    | None => Refused TailErr
    | Some (len, q) =>
      if (le_val len =? Z.of_nat (length data) mod 2 ^ 32)%Z then Got q else Refused LengthErr
    end
  end.
(** gzip.h:128-131 *)
Definition gunzip (init : nat -> list Z) (pieces : list (list Z)) (last : list Z) :=
  decompress meta gunzip_header gunzip_tail 1024 8 init pieces last.

(** Gzip::WritePrestreamHeader (gzip.cpp:27-55); [os] is GZIP_OS_CODE
    (config_misc.h:86-94).  A string of the standard library ends with a zero byte that
    its size does not count. *)
Definition gzip_prefix (os : Z) (g : meta) (level : nat) : list Z :=
  let name := negb (length (g_name g) =? 0) in
  let comment := negb (length (g_comment g) =? 0) in
  let flags := Z.lor (if name then 8 else 0) (if comment then 16 else 0) in
  [0x1f; 0x8b; 8; flags]%Z ++ le_bytes 4 (g_time g)
  ++ [if (level =? 1)%nat then 4 else if (level =? 9)%nat then 2 else 0; os]%Z
  ++ (if name then g_name g ++ [0%Z] else []) ++ (if comment then g_comment g ++ [0%Z] else []).
(** Gzip::WritePoststreamTail (gzip.cpp:63-73) *)
Definition gzip_suffix (data : list Z) : list Z :=
  crc_of data ++ le_bytes 4 (Z.of_nat (length data) mod 2 ^ 32).

(** What SetFiletime, SetFilename and SetComment (gzip.cpp:75-101, gzip.h:42) may
    have been told before a message. *)
Record settings : Type := mkset { s_time : option Z; s_name : option (list Z); s_comment : option (list Z) }.
Definition apply_settings (x : settings) (g : meta) : meta :=
  mkmeta (match s_time x with Some t => t | None => g_time g end)
         (match s_name x with Some t => t | None => g_name g end)
         (match s_comment x with Some t => t | None => g_comment g end).
(** A message of Gzip: as for ZlibCompressor.  The tail clears the time and the
    two strings (gzip.cpp:70-72). *)
Definition gzip_message (os : Z) (k : nat) (g : meta) (s : deflator) (x : settings) (m : list request)
  : option (meta * deflator * list Z) :=
  let g := apply_settings x g in
  match message (2 ^ k) s m with
  | None => None
  | Some (s', out) =>
    Some (mkmeta 0 [] [], s', gzip_prefix os g (header_level (d_level s) m) ++ out ++ gzip_suffix (put_bytes m))
  end.
Fixpoint gzip_messages (os : Z) (k : nat) (g : meta) (s : deflator) (ms : list (settings * list request))
  : option (list (list Z)) :=
  match ms with
  | [] => Some []
  | (x, m) :: ms =>
    match gzip_message os k g s x m with
    | None => None
    | Some (g, s, out) => match gzip_messages os k g s ms with None => None | Some outs => Some (out :: outs) end
    end
  end.
(** The constructor (gzip.h:29, 36). *)
Definition gzip_new : meta := mkmeta 0 [] [].
