(** Model of basecode.cpp (BaseN_Encoder, BaseN_Decoder, Grouper) and of the alphabets in hex.cpp,
    base32.cpp and base64.cpp.

    Simplification used throughout: the attached transformation never blocks, so the FILTER_BEGIN /
    FILTER_OUTPUT / FILTER_END macros (fltrimpl.h:9-66) are straight-line code; the output of one
    call is returned as a list. *)
From Coq Require Import ZArith List Bool Arith.
From Verif Require Import Base.
Import ListNotations.
Local Open Scope Z_scope.

(** basecode.h:51-54: m_outBuf, m_bytePos, m_bitPos (the same three fields, basecode.h:105-108, in
    the decoder). *)
Record bn_state := { bn_buf : list Z; bn_byte : nat; bn_bit : nat }.

(** basecode.cpp:32-35: i = 8; while (i % bitsPerChar != 0) i += 8; outputBlockSize = i / bitsPerChar.
    The loop ends after at most [bitsPerChar] steps, which is the fuel. *)
Fixpoint enc_block_bits (fuel : nat) (n i : nat) : nat :=
  match fuel with
  | O => i
  | S f => if Nat.eqb (i mod n) 0 then i else enc_block_bits f n (i + 8)
  end.
Definition enc_block_size (n : nat) : nat := (enc_block_bits n n 8 / n)%nat.

(** basecode.cpp:117-120: i = bitsPerChar; while (i % 8 != 0) i += bitsPerChar; outputBlockSize = i/8. *)
Fixpoint dec_block_bits (fuel : nat) (n i : nat) : nat :=
  match fuel with
  | O => i
  | S f => if Nat.eqb (i mod 8) 0 then i else dec_block_bits f n (i + n)
  end.
Definition dec_block_size (n : nat) : nat := (dec_block_bits 8 n n / 8)%nat.

(** basecode.cpp:30,37 and 115,122: fresh state (New leaves the buffer uninitialised; the model
    writes zeros, which the code never reads before its own memset). *)
Definition enc_init (n : nat) : bn_state := {| bn_buf := repeat 0 (enc_block_size n); bn_byte := 0; bn_bit := 0 |}.
Definition dec_init (n : nat) : bn_state := {| bn_buf := repeat 0 (dec_block_size n); bn_byte := 0; bn_bit := 0 |}.

(** basecode.cpp:50-70: the [while (true)] loop that spreads one byte over output characters.
    [b] is the shifted source, [src] is bitsLeftInSource.  Every iteration that continues has
    consumed at least one source bit, so fuel 9 is never exhausted; [None] marks exhaustion. *)
Fixpoint enc_spread (fuel : nat) (n : nat) (b : Z) (src : nat) (s : bn_state) : option bn_state :=
  match fuel with
  | O => None
  | S f =>
    let tgt := (n - bn_bit s)%nat in
    let buf := upd (bn_byte s) (Z.lor (nth (bn_byte s) (bn_buf s) 0) (Z.shiftr b (Z.of_nat (8 - tgt)))) (bn_buf s) in
    if Nat.leb tgt src then
      let s' := {| bn_buf := buf; bn_byte := S (bn_byte s); bn_bit := 0 |} in
      if Nat.eqb (src - tgt) 0 then Some s'
      else enc_spread f n (Z.land (Z.shiftl b (Z.of_nat tgt)) 255) (src - tgt) s'
    else Some {| bn_buf := buf; bn_byte := bn_byte s; bn_bit := bn_bit s + src |}
  end.

(** basecode.cpp:43-86: one iteration of the input loop: returns the new state and the output. *)
Definition enc_byte (n : nat) (alpha : Z -> Z) (s : bn_state) (b : Z) : option (bn_state * list Z) :=
  let B := enc_block_size n in
  let s0 := if Nat.eqb (bn_byte s) 0
            then {| bn_buf := repeat 0 B; bn_byte := bn_byte s; bn_bit := bn_bit s |} else s in
  match enc_spread 9 n b 8 s0 with
  | None => None
  | Some s1 =>
    if Nat.eqb (bn_byte s1) B
    then Some ({| bn_buf := map alpha (firstn (bn_byte s1) (bn_buf s1)) ++ skipn (bn_byte s1) (bn_buf s1); bn_byte := 0; bn_bit := 0 |},
               map alpha (firstn B (bn_buf s1)))
    else Some (s1, [])
  end.

Fixpoint enc_bytes (n : nat) (alpha : Z -> Z) (s : bn_state) (l : list Z) : option (bn_state * list Z) :=
  match l with
  | [] => Some (s, [])
  | b :: t =>
    match enc_byte n alpha s b with
    | None => None
    | Some (s1, o1) =>
      match enc_bytes n alpha s1 t with
      | None => None
      | Some (s2, o2) => Some (s2, o1 ++ o2)
      end
    end
  end.

(** basecode.cpp:87-103: message end. [pad = None] is m_padding == -1. *)
Definition enc_end (n : nat) (alpha : Z -> Z) (pad : option Z) (s : bn_state) : bn_state * list Z :=
  let B := enc_block_size n in
  let bp := if Nat.ltb 0 (bn_bit s) then S (bn_byte s) else bn_byte s in
  let chars := map alpha (firstn bp (bn_buf s)) in
  let out := match pad with
             | Some p => if Nat.ltb 0 bp then chars ++ repeat p (B - bp) else chars
             | None => chars
             end in
  ({| bn_buf := out ++ skipn (length out) (bn_buf s); bn_byte := 0; bn_bit := 0 |}, out).

(** basecode.cpp:40-105: Put2(begin, length, messageEnd). *)
Definition enc_put (n : nat) (alpha : Z -> Z) (pad : option Z) (s : bn_state) (l : list Z) (mend : bool)
  : option (bn_state * list Z) :=
  match enc_bytes n alpha s l with
  | None => None
  | Some (s1, o1) =>
    if mend then let '(s2, o2) := enc_end n alpha pad s1 in Some (s2, o1 ++ o2)
    else Some (s1, o1)
  end.

(** basecode.cpp:128-161: one decoder input byte.  [lookup c] is m_lookup[c]; the comparison
    value >= 256 is done on an unsigned int, so negative table entries are skipped.  The C++ stores
    into byte-sized cells, hence the [land 255]. *)
Definition dec_byte (n : nat) (lookup : Z -> Z) (s : bn_state) (c : Z) : bn_state * list Z :=
  let v := lookup c in
  if (v <? 0) || (256 <=? v) then (s, [])
  else
    let B := dec_block_size n in
    let buf0 := if Nat.eqb (bn_byte s) 0 && Nat.eqb (bn_bit s) 0 then repeat 0 B else bn_buf s in
    let p := bn_byte s in
    let nb := (bn_bit s + n)%nat in
    let buf1 :=
      if Nat.leb nb 8
      then upd p (Z.land (Z.lor (nth p buf0 0) (Z.shiftl v (Z.of_nat (8 - nb)))) 255) buf0
      else
        let buf' := upd p (Z.land (Z.lor (nth p buf0 0) (Z.shiftr v (Z.of_nat (nb - 8)))) 255) buf0 in
        upd (S p) (Z.land (Z.lor (nth (S p) buf' 0) (Z.shiftl v (Z.of_nat (16 - nb)))) 255) buf' in
    let s1 := {| bn_buf := buf1; bn_byte := p + nb / 8; bn_bit := nb mod 8 |} in
    if Nat.eqb (bn_byte s1) B
    then ({| bn_buf := buf1; bn_byte := 0; bn_bit := 0 |}, firstn B buf1)
    else (s1, []).

Fixpoint dec_bytes (n : nat) (lookup : Z -> Z) (s : bn_state) (l : list Z) : bn_state * list Z :=
  match l with
  | [] => (s, [])
  | c :: t => let '(s1, o1) := dec_byte n lookup s c in
              let '(s2, o2) := dec_bytes n lookup s1 t in (s2, o1 ++ o2)
  end.

(** basecode.cpp:162-166: message end of the decoder: outputs the complete bytes only. *)
Definition dec_end (s : bn_state) : bn_state * list Z :=
  ({| bn_buf := bn_buf s; bn_byte := 0; bn_bit := 0 |}, firstn (bn_byte s) (bn_buf s)).

(** basecode.cpp:125-168. *)
Definition dec_put (n : nat) (lookup : Z -> Z) (s : bn_state) (l : list Z) (mend : bool) : bn_state * list Z :=
  let '(s1, o1) := dec_bytes n lookup s l in
  if mend then let '(s2, o2) := dec_end s1 in (s2, o1 ++ o2) else (s1, o1).

(** basecode.cpp:170-189: InitializeDecodingLookupArray with caseInsensitive = false: later entries
    overwrite earlier ones. *)
Fixpoint init_lookup_aux (alphabet : list Z) (i : Z) (acc : Z -> Z) : Z -> Z :=
  match alphabet with
  | [] => acc
  | a :: t => init_lookup_aux t (i + 1) (fun c => if c =? a then i else acc c)
  end.
Definition init_lookup (alphabet : list Z) : Z -> Z := init_lookup_aux alphabet 0 (fun _ => -1).

(** isalpha/toupper/tolower in the C locale. *)
Definition is_upper (c : Z) : bool := (65 <=? c) && (c <=? 90).
Definition is_lower (c : Z) : bool := (97 <=? c) && (c <=? 122).
Definition to_upper (c : Z) : Z := if is_lower c then c - 32 else c.
Definition to_lower (c : Z) : Z := if is_upper c then c + 32 else c.

(** basecode.cpp:170-189 with caseInsensitive = true. *)
Fixpoint init_lookup_ci_aux (alphabet : list Z) (i : Z) (acc : Z -> Z) : Z -> Z :=
  match alphabet with
  | [] => acc
  | a :: t =>
    init_lookup_ci_aux t (i + 1)
      (fun c => if is_upper a || is_lower a
                then (if (c =? to_lower a) || (c =? to_upper a) then i else acc c)
                else if c =? a then i else acc c)
  end.
Definition init_lookup_ci (alphabet : list Z) : Z -> Z := init_lookup_ci_aux alphabet 0 (fun _ => -1).

(** basecode.h:140-141: Grouper parameters and m_counter. *)
Record grouper := { gr_size : nat; gr_sep : list Z; gr_term : list Z }.

(** basecode.cpp:211-224: the copy loop of Grouper::Put2.  Each iteration copies
    min(length - position, groupSize - counter) bytes, which is at least one because the counter was
    reset when it equalled the group size; fuel = number of input bytes. *)
Fixpoint gr_loop (fuel : nat) (g : grouper) (ctr : nat) (l : list Z) : nat * list Z :=
  match l, fuel with
  | [], _ => (ctr, [])
  | _, O => (ctr, [])
  | _, S f =>
    let sep := if Nat.eqb ctr (gr_size g) then gr_sep g else [] in
    let ctr0 := if Nat.eqb ctr (gr_size g) then O else ctr in
    let len := Nat.min (length l) (gr_size g - ctr0) in
    let '(c', o) := gr_loop f g (ctr0 + len) (skipn len l) in
    (c', sep ++ firstn len l ++ o)
  end.

(** basecode.cpp:206-235. *)
Definition gr_put (g : grouper) (ctr : nat) (l : list Z) (mend : bool) : nat * list Z :=
  let '(c1, o1) := if Nat.eqb (gr_size g) 0 then (ctr, l) else gr_loop (length l) g ctr l in
  if mend then (O, o1 ++ gr_term g) else (c1, o1).

(** Running a filter on a history of calls (chunk, messageEnd flag).  Outputs of the individual
    calls are kept, with the flag, so that message boundaries stay visible. *)
Fixpoint enc_run (n : nat) (alpha : Z -> Z) (pad : option Z) (s : bn_state) (h : list (list Z * bool))
  : option (bn_state * list (list Z * bool)) :=
  match h with
  | [] => Some (s, [])
  | (l, e) :: t =>
    match enc_put n alpha pad s l e with
    | None => None
    | Some (s1, o) =>
      match enc_run n alpha pad s1 t with
      | None => None
      | Some (s2, os) => Some (s2, (o, e) :: os)
      end
    end
  end.

Fixpoint dec_run (n : nat) (lookup : Z -> Z) (s : bn_state) (h : list (list Z * bool))
  : bn_state * list (list Z * bool) :=
  match h with
  | [] => (s, [])
  | (l, e) :: t => let '(s1, o) := dec_put n lookup s l e in
                   let '(s2, os) := dec_run n lookup s1 t in (s2, (o, e) :: os)
  end.

Fixpoint gr_run (g : grouper) (ctr : nat) (h : list (list Z * bool)) : nat * list (list Z * bool) :=
  match h with
  | [] => (ctr, [])
  | (l, e) :: t => let '(c1, o) := gr_put g ctr l e in
                   let '(c2, os) := gr_run g c1 t in (c2, (o, e) :: os)
  end.

(** hex.cpp:12-31: alphabets and decoding table (s_array as the table [init_lookup_ci] produces; the
    literal table was transcribed below and compared in CodecProofs). *)
Definition hex_upper : list Z := [48;49;50;51;52;53;54;55;56;57;65;66;67;68;69;70].
Definition hex_lower : list Z := [48;49;50;51;52;53;54;55;56;57;97;98;99;100;101;102].
Definition neg16 : list Z := repeat (-1) 16.
Definition hex_array : list Z :=
  neg16 ++ neg16 ++ neg16
  ++ [0;1;2;3;4;5;6;7;8;9;-1;-1;-1;-1;-1;-1]
  ++ [-1;10;11;12;13;14;15;-1;-1;-1;-1;-1;-1;-1;-1;-1]
  ++ neg16
  ++ [-1;10;11;12;13;14;15;-1;-1;-1;-1;-1;-1;-1;-1;-1]
  ++ neg16 ++ neg16 ++ neg16 ++ neg16 ++ neg16 ++ neg16 ++ neg16 ++ neg16 ++ neg16.

(** base64.cpp:10-48. *)
Definition b64_std : list Z :=
  [65;66;67;68;69;70;71;72;73;74;75;76;77;78;79;80;81;82;83;84;85;86;87;88;89;90;
   97;98;99;100;101;102;103;104;105;106;107;108;109;110;111;112;113;114;115;116;117;118;119;120;121;122;
   48;49;50;51;52;53;54;55;56;57;43;47].
Definition b64_url : list Z :=
  [65;66;67;68;69;70;71;72;73;74;75;76;77;78;79;80;81;82;83;84;85;86;87;88;89;90;
   97;98;99;100;101;102;103;104;105;106;107;108;109;110;111;112;113;114;115;116;117;118;119;120;121;122;
   48;49;50;51;52;53;54;55;56;57;45;95].
Definition b64_std_array : list Z :=
  neg16 ++ neg16
  ++ [-1;-1;-1;-1;-1;-1;-1;-1;-1;-1;-1;62;-1;-1;-1;63]
  ++ [52;53;54;55;56;57;58;59;60;61;-1;-1;-1;-1;-1;-1]
  ++ [-1;0;1;2;3;4;5;6;7;8;9;10;11;12;13;14]
  ++ [15;16;17;18;19;20;21;22;23;24;25;-1;-1;-1;-1;-1]
  ++ [-1;26;27;28;29;30;31;32;33;34;35;36;37;38;39;40]
  ++ [41;42;43;44;45;46;47;48;49;50;51;-1;-1;-1;-1;-1]
  ++ neg16 ++ neg16 ++ neg16 ++ neg16 ++ neg16 ++ neg16 ++ neg16 ++ neg16.
Definition b64_url_array : list Z :=
  neg16 ++ neg16
  ++ [-1;-1;-1;-1;-1;-1;-1;-1;-1;-1;-1;-1;-1;62;-1;-1]
  ++ [52;53;54;55;56;57;58;59;60;61;-1;-1;-1;-1;-1;-1]
  ++ [-1;0;1;2;3;4;5;6;7;8;9;10;11;12;13;14]
  ++ [15;16;17;18;19;20;21;22;23;24;25;-1;-1;-1;-1;63]
  ++ [-1;26;27;28;29;30;31;32;33;34;35;36;37;38;39;40]
  ++ [41;42;43;44;45;46;47;48;49;50;51;-1;-1;-1;-1;-1]
  ++ neg16 ++ neg16 ++ neg16 ++ neg16 ++ neg16 ++ neg16 ++ neg16 ++ neg16.
Definition b64_pad : Z := 61.

(** base32.cpp:10-51. *)
Definition b32_upper : list Z :=
  [65;66;67;68;69;70;71;72;73;74;75;77;78;80;81;82;83;84;85;86;87;88;89;90;50;51;52;53;54;55;56;57].
Definition b32_lower : list Z :=
  [97;98;99;100;101;102;103;104;105;106;107;109;110;112;113;114;115;116;117;118;119;120;121;122;50;51;52;53;54;55;56;57].
Definition b32hex_upper : list Z :=
  [48;49;50;51;52;53;54;55;56;57;65;66;67;68;69;70;71;72;73;74;75;76;77;78;79;80;81;82;83;84;85;86].
Definition b32hex_lower : list Z :=
  [48;49;50;51;52;53;54;55;56;57;97;98;99;100;101;102;103;104;105;106;107;108;109;110;111;112;113;114;115;116;117;118].
Definition b32_array : list Z :=
  neg16 ++ neg16 ++ neg16
  ++ [-1;-1;24;25;26;27;28;29;30;31;-1;-1;-1;-1;-1;-1]
  ++ [-1;0;1;2;3;4;5;6;7;8;9;10;-1;11;12;-1]
  ++ [13;14;15;16;17;18;19;20;21;22;23;-1;-1;-1;-1;-1]
  ++ [-1;0;1;2;3;4;5;6;7;8;9;10;-1;11;12;-1]
  ++ [13;14;15;16;17;18;19;20;21;22;23;-1;-1;-1;-1;-1]
  ++ neg16 ++ neg16 ++ neg16 ++ neg16 ++ neg16 ++ neg16 ++ neg16 ++ neg16.
Definition b32hex_array : list Z :=
  neg16 ++ neg16 ++ neg16
  ++ [0;1;2;3;4;5;6;7;8;9;-1;-1;-1;-1;-1;-1]
  ++ [-1;10;11;12;13;14;15;16;17;18;19;20;21;22;23;24]
  ++ [25;26;27;28;29;30;31;-1;-1;-1;-1;-1;-1;-1;-1;-1]
  ++ [-1;10;11;12;13;14;15;16;17;18;19;20;21;22;23;24]
  ++ [25;26;27;28;29;30;31;-1;-1;-1;-1;-1;-1;-1;-1;-1]
  ++ neg16 ++ neg16 ++ neg16 ++ neg16 ++ neg16 ++ neg16 ++ neg16 ++ neg16.

(** m_alphabet[i] and m_lookup[c] as functions. *)
Definition arr (l : list Z) (i : Z) : Z := nth (Z.to_nat i) l 0.

(** filters.h ProxyFilter use in hex.h/base64.h: the encoder's BaseN_Encoder feeds a Grouper
    (e.g. base64.h:36-45: new BaseN_Encoder(new Grouper)). One call of the pair: the encoder
    passes its (non-empty or final) output on with the same messageEnd. *)
Definition encgr_put (n : nat) (alpha : Z -> Z) (pad : option Z) (g : grouper)
  (s : bn_state * nat) (l : list Z) (mend : bool) : option ((bn_state * nat) * list Z) :=
  match enc_put n alpha pad (fst s) l mend with
  | None => None
  | Some (s1, o) => let '(c1, o2) := gr_put g (snd s) o mend in Some ((s1, c1), o2)
  end.

Fixpoint encgr_run (n : nat) (alpha : Z -> Z) (pad : option Z) (g : grouper) (s : bn_state * nat)
  (h : list (list Z * bool)) : option ((bn_state * nat) * list (list Z * bool)) :=
  match h with
  | [] => Some (s, [])
  | (l, e) :: t =>
    match encgr_put n alpha pad g s l e with
    | None => None
    | Some (s1, o) =>
      match encgr_run n alpha pad g s1 t with
      | None => None
      | Some (s2, os) => Some (s2, (o, e) :: os)
      end
    end
  end.
