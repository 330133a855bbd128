(** WrapSpec: the formats of RFC 1950 and RFC 1952, in terms of that of RFC 1951
    (InflateSpec) and of the checksums (ChecksumSpec). *)
From Coq Require Import ZArith List Bool Arith.
From Verif Require Import Base ChecksumSpec InflateSpec.
Import ListNotations.

(** RFC 1950, 2.2: CMF and FLG, whose value is a multiple of 31; the method is 8,
    there is no preset dictionary, and the window has 2^(CINFO+8) bytes, CINFO at
    most 7; then the compressed data and its Adler-32.  [strict] as in
    InflateSpec; without it CINFO may also be greater.  [rest] comes after. *)
Definition zlib_stream (strict : bool) (comp data rest : list Z) : Prop :=
  exists cmf flg body, comp = cmf :: flg :: body
    /\ ((cmf * 256 + flg) mod 31 = 0 /\ cmf mod 16 = 8 /\ Z.testbit flg 5 = false)%Z
    /\ (strict = true -> (cmf / 16 <= 7)%Z)
    /\ deflated strict (Z.to_nat (2 ^ (cmf / 16 + 8))) body data (adler_spec data ++ rest).

(** RFC 1952, 2.3.1: a field that is there if the bit of FLG is set: FEXTRA, two
    bytes of length and so many bytes; FNAME and FCOMMENT, a string and a zero
    byte. *)
Definition extra_field (present : bool) (f : list Z) : Prop :=
  if present then exists x, (Z.of_nat (length x) < 65536)%Z /\ f = le_bytes 2 (Z.of_nat (length x)) ++ x else f = [].
Definition string_field (present : bool) (v f : list Z) : Prop :=
  if present then ~ In 0%Z v /\ f = v ++ [0%Z] else v = [] /\ f = [].

(** RFC 1952, 2.3: the header of a member, without a CRC16 of it: its modification
    time, name and comment.  The reserved bits of FLG are zero in the format;
    without [strict] the upper two may be set. *)
Definition gzip_header (strict : bool) (hdr : list Z) (time : Z) (name comment : list Z) : Prop :=
  exists flg xfl os ef nf cf, hdr = [31; 139; 8; flg]%Z ++ le_bytes 4 time ++ [xfl; os] ++ ef ++ nf ++ cf
    /\ (0 <= time < 2 ^ 32)%Z
    /\ Z.testbit flg 1 = false /\ Z.testbit flg 5 = false
    /\ (strict = true -> Z.testbit flg 6 = false /\ Z.testbit flg 7 = false)
    /\ extra_field (Z.testbit flg 2) ef
    /\ string_field (Z.testbit flg 3) name nf
    /\ string_field (Z.testbit flg 4) comment cf.

(** After the header: the compressed data, their CRC-32 and their number modulo
    2^32; then what comes after the member. *)
Definition gzip_body (strict : bool) (body data rest : list Z) : Prop :=
  deflated strict (Z.to_nat 32768) body data
    (crc_spec POLY_CRC32 data ++ le_bytes 4 (Z.of_nat (length data) mod 2 ^ 32) ++ rest).
