(** Model of the key derivation functions of pwdbased.h and hkdf.h, over any hash object ([hobj] of HashModel; [None] where
    the hash throws).  Simplified: the output buffer is the list of the bytes written; counts of iterations are
    natural numbers (no wrap of unsigned int); the timer is an oracle: [clock j] says that time is left when it is
    asked at iteration [j], [timed] that timeInSeconds is not zero. *)
From Coq Require Import ZArith List Bool Arith.
From Verif Require Import Base Blocks HashModel.
Import ListNotations.
Local Open Scope Z_scope.

Inductive kdf := KBadLength | KKey (iterations : nat) (key : list Z).

(** pwdbased.h:145, 283, 431: for (j=1; j<iterations || (timeInSeconds && (j%128!=0 || time left)); j++) *)
Fixpoint timed_loop {A : Type} (fuel : nat) (timed : bool) (clock : nat -> bool) (iterations j : nat) (step : A -> option A) (x : A) : option (nat * A) :=
  match fuel with
  | O => None
  | S f =>
    if Nat.ltb j iterations || (timed && (negb (Nat.eqb (j mod 128) 0) || clock j)) then
      match step x with
      | None => None
      | Some x1 => timed_loop f timed clock iterations (j + 1) step x1
      end
    else Some (j, x)
  end.

Section Kdf.
  Context {T : Type} (o : hobj T).

  (** cryptlib.h: CalculateDigest is Update, then Final. *)
  Definition ho_digest (s : T) (d : list Z) : option (T * list Z) :=
    match ho_update o s d with Some s1 => Some (ho_final o s1 (ho_dsize o)) | None => None end.
  Definition hm_digest (m : hmac T) (d : list Z) : option (hmac T * list Z) :=
    match hm_update o m d with
    | Some m1 => match hm_final o m1 (ho_dsize o) with Some (m2, Some t) => Some (m2, t) | _ => None end
    | None => None
    end.
  Fixpoint hm_updates (m : hmac T) (ds : list (list Z)) : option (hmac T) :=
    match ds with
    | [] => Some m
    | d :: r => match hm_update o m d with Some m1 => hm_updates m1 r | None => None end
    end.

  (** pwdbased.h:117-152: PKCS5_PBKDF1::DeriveKey; lengths up to DIGESTSIZE, pwdbased.h:51-53. *)
  Definition pbkdf1 (fuel : nat) (s : T) (secret salt : list Z) (iterations len : nat) (timed : bool) (clock : nat -> bool) : option kdf :=
    if Nat.ltb (ho_dsize o) len then Some KBadLength
    else
      let iterations := if Nat.eqb iterations 0 then 1%nat else iterations in
      match ho_update o s secret with
      | None => None
      | Some s1 =>
        match ho_update o s1 salt with
        | None => None
        | Some s2 =>
          match timed_loop fuel timed clock iterations 1 (fun '(h, buffer) => ho_digest h buffer) (ho_final o s2 (ho_dsize o)) with
          | None => None
          | Some (i, (_, buffer)) => Some (KKey i (firstn len buffer))
          end
        end
      end.

  (** pwdbased.h:264-306: the loop over the blocks; [i] is the block number, an unsigned int. *)
  Fixpoint pbkdf2_loop (fuel blocks : nat) (m : hmac T) (salt : list Z) (i : Z) (len iterations : nat) (timed : bool) (clock : nat -> bool) : option (nat * list Z) :=
    match blocks with
    | O => if Nat.eqb len 0 then Some (iterations, []) else None
    | S b =>
      if Nat.eqb len 0 then Some (iterations, [])
      else
        match hm_updates m (salt :: map (fun j => [Z.shiftr i ((3 - j) * 8) mod 256]) [0; 1; 2; 3]) with
        | None => None
        | Some m1 =>
          match hm_final o m1 (ho_dsize o) with
          | Some (m2, Some buffer) =>
            let seg := Nat.min len (length buffer) in
            match timed_loop fuel timed clock iterations 1
                    (fun '(h, buf, derived) => match hm_digest h buf with
                                               | Some (h1, buf1) => Some (h1, buf1, xorl derived (firstn seg buf1))
                                               | None => None
                                               end) (m2, buffer, firstn seg buffer) with
            | None => None
            | Some (j, (m3, _, derived)) =>
              match pbkdf2_loop fuel b m3 salt ((i + 1) mod 2 ^ 32) (len - seg) (if timed then j else iterations) false clock with
              | None => None
              | Some (n, rest) => Some (n, derived ++ rest)
              end
            end
          | _ => None
          end
        end
    end.
  (** pwdbased.h:243-309: PKCS5_PBKDF2_HMAC::DeriveKey; lengths up to 2^32-1, pwdbased.h:178-180.  A digest size of 0 is
      refused with InvalidArgument, here [None]. *)
  Definition pbkdf2 (fuel : nat) (s : T) (secret salt : list Z) (iterations len : nat) (timed : bool) (clock : nat -> bool) : option kdf :=
    if 2 ^ 32 - 1 <? Z.of_nat len then Some KBadLength
    else
      let iterations := if Nat.eqb iterations 0 then 1%nat else iterations in
      match hm_setkey o (hm_new s) secret with
      | None => None
      | Some m =>
        if Nat.eqb (ho_dsize o) 0 then None
        else match pbkdf2_loop fuel len m salt 1 len iterations timed clock with
             | None => None
             | Some (n, key) => Some (KKey n key)
             end
      end.

  (** hkdf.h:153-174: the expansion loop; [block] is a byte. *)
  Fixpoint hkdf_loop (blocks : nat) (m : hmac T) (buffer info : list Z) (block : Z) (len : nat) : option (list Z) :=
    match blocks with
    | O => if Nat.eqb len 0 then Some [] else None
    | S b =>
      if Nat.eqb len 0 then Some []
      else
        let ds := (if block =? 0 then [] else [buffer]) ++ (if Nat.eqb (length info) 0 then [] else [info]) in
        let block1 := (block + 1) mod 256 in
        match hm_updates m ds with
        | None => None
        | Some m1 =>
          match hm_digest m1 [block1] with
          | None => None
          | Some (m2, buffer1) =>
            let seg := Nat.min len (ho_dsize o) in
            match hkdf_loop b m2 buffer1 info block1 (len - seg) with
            | None => None
            | Some rest => Some (firstn seg buffer1 ++ rest)
            end
          end
        end
    end.
  (** hkdf.h:123-178: HKDF::DeriveKey; lengths up to 255 digests, hkdf.h:42-44; [salt] is [None] for a null pointer. *)
  Definition hkdf (s : T) (secret : list Z) (salt : option (list Z)) (info : list Z) (len : nat) : option kdf :=
    if Nat.ltb (ho_dsize o * 255) len then Some KBadLength
    else
      let salt1 := match salt with Some x => x | None => repeat 0 (ho_dsize o) end in
      match hm_setkey o (hm_new s) salt1 with
      | None => None
      | Some m =>
        match hm_digest m secret with
        | None => None
        | Some (m1, key) =>
          match hm_setkey o m1 key with
          | None => None
          | Some m2 => match hkdf_loop len m2 (repeat 0 (ho_dsize o)) info 0 len with
                       | None => None
                       | Some k => Some (KKey 1 k)
                       end
          end
        end
      end.

  (** misc.h:1040-1075: RoundUpToMultipleOf *)
  Definition round_up (n v : nat) : nat := ((n + v - 1) / v * v)%nat.
  (** pwdbased.h:413-416: the input repeated to a multiple of [v] bytes *)
  Definition p12_fill (x : list Z) (v : nat) : list Z := map (fun i => nth (i mod length x) x 0) (seq 0 (round_up (length x) v)).
  (** pwdbased.h:442-444: Integer addition, written back to the [v] bytes (IntegerProperties for the arithmetic). *)
  Fixpoint p12_add (fuel : nat) (v : nat) (I : list Z) (b1 : Z) : list Z :=
    match fuel with
    | O => I
    | S f => if Nat.eqb (length I) 0 then [] else be_bytes v (be_val (firstn v I) + b1) ++ p12_add f v (skipn v I) b1
    end.
  (** pwdbased.h:420-456 *)
  Fixpoint p12_loop (fuel blocks : nat) (s : T) (D I : list Z) (len iterations : nat) (timed : bool) (clock : nat -> bool) : option (nat * list Z) :=
    match blocks with
    | O => if Nat.eqb len 0 then Some (iterations, []) else None
    | S b =>
      if Nat.eqb len 0 then Some (iterations, [])
      else
        match ho_digest s (D ++ I) with
        | None => None
        | Some x =>
          match timed_loop fuel timed clock iterations 1 (fun '(h, a) => ho_digest h a) x with
          | None => None
          | Some (i, (s1, a)) =>
            let v := ho_bsize o in
            let B := map (fun k => nth (k mod length a) a 0) (seq 0 v) in
            let I1 := p12_add (length I) v I (be_val B + 1) in
            let seg := Nat.min len (length a) in
            match p12_loop fuel b s1 D I1 (len - seg) (if timed then i else iterations) false clock with
            | None => None
            | Some (n, rest) => Some (n, firstn seg a ++ rest)
            end
          end
        end
    end.
  (** pwdbased.h:390-459: PKCS12_PBKDF::DeriveKey; every length is accepted. *)
  Definition pkcs12 (fuel : nat) (s : T) (purpose : Z) (secret salt : list Z) (iterations len : nat) (timed : bool) (clock : nat -> bool) : option kdf :=
    let iterations := if Nat.eqb iterations 0 then 1%nat else iterations in
    let v := ho_bsize o in
    match p12_loop fuel len s (repeat purpose v) (p12_fill salt v ++ p12_fill secret v) len iterations timed clock with
    | None => None
    | Some (n, key) => Some (KKey n key)
    end.
End Kdf.
