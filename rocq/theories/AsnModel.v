(** Model of asn.cpp and asn.h: BER decoding and DER encoding.

    An input is a byte list seen through the BERGeneralDecoder objects that are open on it, innermost first;
    each has a remaining length, or none if the length is indefinite.  [None] as a result: BERDecodeErr is
    thrown.  Encoders give the list of bytes they put.  [sz] is the number of bits of size_t. *)
From Coq Require Import ZArith List Bool Arith Lia.
From Verif Require Import Base.
Import ListNotations.
Local Open Scope Z_scope.

Definition BOOLEAN := 1. Definition INTEGER := 2. Definition BIT_STRING := 3. Definition OCTET_STRING := 4.
Definition TAG_NULL := 5. Definition OBJECT_IDENTIFIER := 6. Definition ENUMERATED := 10. Definition SEQUENCE := 48.

(* -------------------------------------------------------------------- sources *)

Record src := mkSrc { s_in : list Z; s_frames : list (option Z) }.
(** asn.cpp:569-576: each decoder cuts a transfer to its remaining length; the innermost input to what it holds *)
Definition s_count (s : src) : Z :=
  fold_right (fun f n => match f with Some l => Z.min l n | None => n end) (Z.of_nat (length (s_in s))) (s_frames s).
(** asn.cpp:585-594: ReduceLength of every open decoder *)
Definition s_skip (n : Z) (s : src) : src :=
  mkSrc (skipn (Z.to_nat n) (s_in s)) (map (option_map (fun l => l - n)) (s_frames s)).
(** BufferedTransformation::Get(byte &), Get(byte *, size_t), Peek(byte &), PeekWord16 *)
Definition s_get (s : src) : option (Z * src) := if 1 <=? s_count s then Some (hd 0 (s_in s), s_skip 1 s) else None.
Definition s_getn (n : Z) (s : src) : list Z * src :=
  let k := Z.min n (s_count s) in (firstn (Z.to_nat k) (s_in s), s_skip k s).
Definition s_peek (s : src) : option Z := if 1 <=? s_count s then Some (hd 0 (s_in s)) else None.
Definition s_peek2 (s : src) : list Z := firstn (Z.to_nat (Z.min 2 (s_count s))) (s_in s).

(* -------------------------------------------------------------------- lengths *)

(** misc.h:1023-1040 (BytePrecision), 1046-1064 (BitPrecision): binary search; [step] is 8 or 1, [w] the number of bits of the type *)
Fixpoint prec_loop (fuel : nat) (step v l h : Z) : Z :=
  match fuel with
  | O => h
  | S k => if step <? h - l then
             let t := (l + h) / 2 in if Z.shiftr v t =? 0 then prec_loop k step v l t else prec_loop k step v t h
           else h
  end.
Definition byte_precision (w v : Z) : Z := if v =? 0 then 0 else prec_loop (Z.to_nat w) 8 v 0 w / 8.
Definition bit_precision (w v : Z) : Z := if v =? 0 then 0 else prec_loop (Z.to_nat w) 1 v 0 w.

(** asn.cpp:32-36: for (int j = n; j; --j) Put(byte(length >> (j-1)*8)) *)
Fixpoint put_bytes (n : nat) (v : Z) : list Z :=
  match n with O => [] | S k => Z.shiftr v (8 * Z.of_nat k) mod 256 :: put_bytes k v end.
(** asn.cpp:20-39; the value returned is the number of bytes *)
Definition der_length (length : Z) : list Z :=
  if length <=? 127 then [length mod 256]
  else let n := byte_precision 64 length in (Z.lor n 128 mod 256) :: put_bytes (Z.to_nat n) length.

(** asn.cpp:41-77: BERLengthDecode(bt, lword &, bool &).  [LFalse]: returns false. *)
Inductive lres := LFalse | LThrow | LOk (definite : bool) (length : Z) (s : src).
Fixpoint length_loop (n : nat) (length : Z) (s : src) : lres :=
  match n with
  | O => LOk true length s
  | S k =>
    if negb (Z.shiftr length 56 =? 0) then LThrow
    else match s_get s with
         | None => LFalse
         | Some (b, s') => length_loop k (Z.lor (Z.shiftl length 8 mod 2 ^ 64) b) s'
         end
  end.
Definition ber_length_lw (s : src) : lres :=
  match s_get s with
  | None => LFalse
  | Some (b, s') =>
    if Z.land b 128 =? 0 then LOk true b s'
    else
      let n := Z.land b 127 in
      if n =? 0 then LOk false 0 s' else length_loop (Z.to_nat n) 0 s'
  end.
(** asn.cpp:79-88: BERLengthDecode(bt, size_t &); SafeConvert misc.h:717-724 *)
Definition ber_length (sz : Z) (s : src) : option (bool * Z * src) :=
  match ber_length_lw s with
  | LOk d l s' => if l mod 2 ^ sz =? l then Some (d, l, s') else None
  | _ => None
  end.

(* -------------------------------------------------------------------- null, strings *)

(** asn.cpp:90-94 *)
Definition der_null : list Z := [TAG_NULL; 0].
(** asn.cpp:96-104 *)
Definition ber_null (sz : Z) (s : src) : option (unit * src) :=
  match s_get s with
  | Some (b, s1) =>
    if b =? TAG_NULL then
      match ber_length sz s1 with
      | Some (true, 0, s2) => Some (tt, s2)
      | _ => None
      end
    else None
  | None => None
  end.
(** asn.cpp:107-118, 154-170, 210-216 *)
Definition der_string (tag : Z) (str : list Z) : list Z := tag :: der_length (Z.of_nat (length str)) ++ str.
Definition der_octet_string (str : list Z) : list Z := der_string OCTET_STRING str.
Definition der_text_string (tag : Z) (str : list Z) : list Z := der_string tag str.
Definition der_date (tag : Z) (str : list Z) : list Z := der_string tag str.
(** asn.cpp:120-136, 138-152, 172-189, 191-208, 218-235: the value and the source after it *)
Definition ber_string (sz tag : Z) (s : src) : option (list Z * src) :=
  match s_get s with
  | Some (b, s1) =>
    if b =? tag then
      match ber_length sz s1 with
      | Some (true, bc, s2) =>
        if s_count s2 <? bc then None
        else let '(str, s3) := s_getn bc s2 in if Z.of_nat (length str) =? bc then Some (str, s3) else None
      | _ => None
      end
    else None
  | None => None
  end.
Definition ber_octet_string (sz : Z) (s : src) := ber_string sz OCTET_STRING s.
Definition ber_text_string (sz tag : Z) (s : src) := ber_string sz tag s.
Definition ber_date (sz tag : Z) (s : src) := ber_string sz tag s.
(** asn.cpp:237-244 *)
Definition der_bit_string (str : list Z) (unused : Z) : list Z :=
  BIT_STRING :: der_length (Z.of_nat (length str) + 1) ++ (unused mod 256) :: str.
(** asn.cpp:246-269 *)
Definition ber_bit_string (sz : Z) (s : src) : option ((list Z * Z) * src) :=
  match s_get s with
  | Some (b, s1) =>
    if b =? BIT_STRING then
      match ber_length sz s1 with
      | Some (true, bc, s2) =>
        if bc =? 0 then None
        else if s_count s2 <? bc then None
        else match s_get s2 with
             | Some (unused, s3) =>
               if 7 <? unused then None
               else let '(str, s4) := s_getn (bc - 1) s3 in
                    if Z.of_nat (length str) =? bc - 1 then Some ((str, unused), s4) else None
             | None => None
             end
      | _ => None
      end
    else None
  | None => None
  end.

(* -------------------------------------------------------------------- unsigned words *)

(** asn.h:835-837: while (bc > 1 && buf[sizeof(w)+1-bc] == 0) --bc; [buf] are the bytes of w *)
Fixpoint strip_lead (buf : list Z) : list Z :=
  match buf with
  | x :: r => match r with [] => buf | _ => if x =? 0 then strip_lead r else buf end
  | [] => []
  end.
(** asn.h:820-844; [n] is sizeof(T) *)
Definition der_unsigned (n : nat) (tag w : Z) : list Z :=
  let buf :=
    if tag =? BOOLEAN then [if w =? 0 then 0 else 255]
    else
      let b := strip_lead (put_bytes n w) in
      if Z.land (hd 0 b) 128 =? 0 then b else 0 :: b in
  tag :: der_length (Z.of_nat (length buf)) ++ buf.
(** asn.h:885-890 *)
Fixpoint drop_zeros (n : nat) (buf : list Z) : list Z :=
  match buf with
  | x :: r => if (Nat.ltb n (length buf)) && (x =? 0) then drop_zeros n r else buf
  | [] => []
  end.
(** asn.h:856-900 *)
Definition ber_unsigned (sz : Z) (n : nat) (tag minv maxv : Z) (s : src) : option (Z * src) :=
  match s_get s with
  | Some (b, s1) =>
    if b =? tag then
      match ber_length sz s1 with
      | Some (true, bc, s2) =>
        if s_count s2 <? bc then None
        else if (tag =? BOOLEAN) && negb (bc =? 1) then None
        else if ((tag =? INTEGER) || (tag =? ENUMERATED)) && (bc =? 0) then None
        else
          let '(buf, s3) := s_getn bc s2 in
          if negb (Z.of_nat (length buf) =? bc) then None
          else
            let p := drop_zeros n buf in
            if Nat.ltb n (length p) then None
            else
              let w := fold_left (fun w b => Z.lor (Z.shiftl w 8 mod 2 ^ (8 * Z.of_nat n)) b) p 0 in
              if (w <? minv) || (maxv <? w) then None else Some (w, s3)
      | _ => None
      end
    else None
  | None => None
  end.

(* -------------------------------------------------------------------- object identifiers *)

(** asn.cpp:307-312: the number of leading 7-bit groups, then the groups *)
Fixpoint oid_groups (n : nat) (v : Z) : list Z :=
  match n with O => [] | S k => Z.lor 128 (Z.land (Z.shiftr v (7 * Z.of_nat n)) 127) :: oid_groups k v end.
Definition oid_encode_value (v : Z) : list Z :=
  let i := (Z.max 7 (bit_precision 32 v) + 6) / 7 * 7 - 7 in
  oid_groups (Z.to_nat (i / 7)) v ++ [Z.land v 127].
(** asn.cpp:314-331: the value, the number of bytes, the source after it; [fuel]: the bytes available *)
Fixpoint oid_decode_loop (fuel : nat) (i v : Z) (s : src) : option (Z * Z * src) :=
  match fuel with
  | O => None
  | S k =>
    match s_get s with
    | None => None
    | Some (b, s') =>
      if negb (Z.shiftr v 25 =? 0) then None
      else
        let v' := (Z.shiftl v 7 mod 2 ^ 32 + Z.land b 127) mod 2 ^ 32 in
        if Z.land b 128 =? 0 then Some (v', i + 1, s') else oid_decode_loop k (i + 1) v' s'
    end
  end.
Definition oid_decode_value (s : src) : option (Z * Z * src) := oid_decode_loop (S (length (s_in s))) 0 0 s.
(** asn.cpp:333-343; at least two values *)
Definition oid_encode (values : list Z) : list Z :=
  let body := ((nth 0 values 0 * 40 mod 2 ^ 32 + nth 1 values 0) mod 2 ^ 32) mod 256 :: concat (map oid_encode_value (skipn 2 values)) in
  OBJECT_IDENTIFIER :: der_length (Z.of_nat (length body)) ++ body.
(** asn.cpp:363-371; [fuel]: the bytes available *)
Fixpoint oid_values (fuel : nat) (length : Z) (s : src) : option (list Z * src) :=
  if 0 <? length then
    match fuel with
    | O => None
    | S k =>
      match oid_decode_value s with
      | None => None
      | Some (v, n, s') =>
        if length <? n then None
        else match oid_values k (length - n) s' with
             | None => None
             | Some (vs, s2) => Some (v :: vs, s2)
             end
      end
    end
  else Some ([], s).
(** asn.cpp:345-372 *)
Definition oid_decode (sz : Z) (s : src) : option (list Z * src) :=
  match s_get s with
  | Some (b, s1) =>
    if b =? OBJECT_IDENTIFIER then
      match ber_length sz s1 with
      | Some (true, l, s2) =>
        if l <? 1 then None
        else match s_get s2 with
             | None => None
             | Some (b, s3) =>
               match oid_values (S (length (s_in s3))) (l - 1) s3 with
               | None => None
               | Some (vs, s4) => Some (b / 40 :: b mod 40 :: vs, s4)
               end
             end
      | _ => None
      end
    else None
  | None => None
  end.
(** asn.cpp:374-379 *)
Definition oid_decode_check (sz : Z) (oid : list Z) (s : src) : option (unit * src) :=
  match oid_decode sz s with
  | Some (v, s') => if list_eq_dec Z.eq_dec oid v then Some (tt, s') else None
  | None => None
  end.

(* -------------------------------------------------------------------- constructed objects *)

(** asn.cpp:624-631: DERGeneralEncoder::MessageEnd, having collected [content] *)
Definition der_wrap (tag : Z) (content : list Z) : list Z := tag :: der_length (Z.of_nat (length content)) ++ content.
(** asn.cpp:501-512: BERGeneralDecoder::Init: opens a decoder *)
Definition ber_open (tag : Z) (s : src) : option src :=
  match s_get s with
  | Some (b, s1) =>
    if b =? tag then
      match ber_length_lw s1 with
      | LOk d l s2 =>
        if negb d && (Z.land tag 32 =? 0) then None
        else Some (mkSrc (s_in s2) ((if d then Some l else None) :: s_frames s2))
      | _ => None
      end
    else None
  | None => None
  end.
(** asn.cpp:527-536: EndReached of the innermost decoder *)
Definition ber_at_end (s : src) : bool :=
  match s_frames s with
  | Some l :: _ => l =? 0
  | None :: r => if list_eq_dec Z.eq_dec (s_peek2 (mkSrc (s_in s) r)) [0; 0] then true else false
  | [] => false
  end.
(** asn.cpp:553-567: MessageEnd: closes the innermost decoder *)
Definition ber_close (s : src) : option src :=
  match s_frames s with
  | Some l :: r => if l =? 0 then Some (mkSrc (s_in s) r) else None
  | None :: r => let '(d, s') := s_getn 2 (mkSrc (s_in s) r) in if list_eq_dec Z.eq_dec d [0; 0] then Some s' else None
  | [] => None
  end.
(** asn.h:410-414: RemainingLength *)
Definition ber_remaining (s : src) : Z := match s_frames s with Some l :: _ => l | _ => 0 end.

(** asn.cpp:271-286: DERReencode.  [fuel] bounds the nesting, or the number of objects at one level; the bytes
    put to the destination.  If the source is empty the tag is unspecified, and the decoder throws. *)
Fixpoint der_reencode (fuel : nat) (s : src) : option (list Z * src) :=
  match fuel with
  | O => None
  | S k =>
    match s_peek s with
    | None => None
    | Some tag =>
      match ber_open tag s with
      | None => None
      | Some s1 =>
        let r :=
          match s_frames s1 with
          | Some l :: _ => Some (s_getn l s1)
          | _ => reencode_loop k s1
          end in
        match r with
        | None => None
        | Some (content, s2) =>
          match ber_close s2 with
          | None => None
          | Some s3 => Some (der_wrap tag content, s3)
          end
        end
      end
    end
  end
with reencode_loop (fuel : nat) (s : src) : option (list Z * src) :=
  match fuel with
  | O => None
  | S k =>
    if ber_at_end s then Some ([], s)
    else match der_reencode k s with
         | None => None
         | Some (a, s1) => match reencode_loop k s1 with None => None | Some (b, s2) => Some (a ++ b, s2) end
         end
  end.

(** asn.cpp:288-305: BERDecodePeekLength; it works on a copy of at most 16 bytes. *)
Definition ber_peek_length (sz : Z) (s : src) : option Z :=
  let d := firstn (Z.to_nat (Z.min 16 (s_count s))) (s_in s) in
  match d with
  | [] => Some 0
  | _ :: d' => match ber_length sz (mkSrc d' []) with
               | None => None
               | Some (true, l, _) => Some l
               | Some (false, _, _) => Some 0
               end
  end.

(* -------------------------------------------------------------------- key containers *)

(** A virtual pair of functions: encode, decode. *)
Record codec (A : Type) := mkCodec { c_enc : A -> list Z; c_dec : src -> option (A * src) }.
Arguments c_enc {A}. Arguments c_dec {A}.
Definition bind {A B} (r : option (A * src)) (f : A -> src -> option B) : option B := match r with Some (a, s) => f a s | None => None end.
Definition bind1 {B} (r : option src) (f : src -> option B) : option B := match r with Some s => f s | None => None end.

Section Keys.
  Context {P K : Type}.
  Variable sz : Z.
  Variable alg : list Z.                                   (* GetAlgorithmID() *)
  (* DEREncodeAlgorithmParameters and BERDecodeAlgorithmParameters *)
  Variable params : codec P.
  (* DEREncodePublicKey and BERDecodePublicKey, given parametersPresent and the size; the same for private keys *)
  Variable key_enc : K -> list Z.
  Variable key_dec : bool -> Z -> src -> option (K * src).

  Definition algorithm_enc (p : P) : list Z := der_wrap SEQUENCE (oid_encode alg ++ c_enc params p).
  Definition algorithm_dec (s : src) : option (option P * src) :=
    bind1 (ber_open SEQUENCE s) (fun s =>
    bind (oid_decode_check sz alg s) (fun _ s =>
    bind (if ber_at_end s then Some (None, s) else bind (c_dec params s) (fun p s => Some (Some p, s))) (fun p s =>
    bind1 (ber_close s) (fun s => Some (p, s))))).
  (** asn.cpp:650-665: X509PublicKey::DEREncode *)
  Definition x509_enc (p : P) (k : K) : list Z :=
    der_wrap SEQUENCE (algorithm_enc p ++ der_wrap BIT_STRING (0 :: key_enc k)).
  (** asn.cpp:635-648: X509PublicKey::BERDecode *)
  Definition x509_dec (s : src) : option ((option P * K) * src) :=
    bind1 (ber_open SEQUENCE s) (fun s =>
    bind (algorithm_dec s) (fun p s =>
    bind1 (ber_open BIT_STRING s) (fun s =>
    bind (s_get s) (fun b s =>
    if b =? 0 then
      bind (key_dec (match p with Some _ => true | None => false end) (ber_remaining s) s) (fun k s =>
      bind1 (ber_close s) (fun s =>
      bind1 (ber_close s) (fun s => Some ((p, k), s))))
    else None)))).
  (** asn.cpp:687-703, 710-713: PKCS8PrivateKey::DEREncode *)
  Definition pkcs8_enc (p : P) (k : K) (attributes : list Z) : list Z :=
    der_wrap SEQUENCE (der_unsigned 4 INTEGER 0 ++ algorithm_enc p ++ der_wrap OCTET_STRING (key_enc k) ++ attributes).
  (** asn.cpp:667-685, 705-708: PKCS8PrivateKey::BERDecode; the bytes added to m_optionalAttributes *)
  Definition pkcs8_dec (s : src) : option ((option P * K * list Z) * src) :=
    bind1 (ber_open SEQUENCE s) (fun s =>
    bind (ber_unsigned sz 4 INTEGER 0 0 s) (fun _ s =>
    bind (algorithm_dec s) (fun p s =>
    bind1 (ber_open OCTET_STRING s) (fun s1 =>   (* the size passed is that of the rest of privateKeyInfo *)
    bind (key_dec (match p with Some _ => true | None => false end) (ber_remaining (mkSrc (s_in s1) (tl (s_frames s1)))) s1) (fun k s =>
    bind1 (ber_close s) (fun s =>
    bind (if ber_at_end s then Some ([], s) else der_reencode (2 * length (s_in s) + 2) s) (fun a s =>
    bind1 (ber_close s) (fun s => Some ((p, k, a), s))))))))).
End Keys.
