(** WindowModel: the sliding window through which the Inflator writes its
    output (zinflate.cpp:241-302 and 605-613, zinflate.h:143,158-159).

    Every access to the window goes through [rd] and [wr], which fail outside
    the allocated block: the C++ code indexes a heap block without a check,
    so [Oob] stands for a read or a write outside of it. *)
From Coq Require Import ZArith List Arith Bool.
From Verif Require Import Base.
Import ListNotations.

(** How a call ends: normally, with BadBlockErr (zinflate.h:106), or after an
    access outside the block that holds the window. *)
Inductive res (A : Type) : Type :=
| Ok (a : A)
| Throw
| Oob.
Arguments Ok {A} _.
Arguments Throw {A}.
Arguments Oob {A}.

(** m_window, m_current, m_lastFlush, m_wrappedAround (zinflate.h:148-159),
    and the bytes given to ProcessDecompressedData so far, which by default
    puts them into the attached transformation (zinflate.h:128-129). *)
Record win : Type := mkwin
  { wbuf : list Z; wcur : nat; wflush : nat; wwrap : bool; wsent : list Z }.

(** m_window[i] (any read of the block): no value outside of it. *)
Definition rd (w : win) (i : nat) : option Z := nth_error (wbuf w) i.

(** The state at the start of a stream, for a window of [size] bytes
    (zinflate.cpp:339-345: m_wrappedAround, m_current and m_lastFlush are
    cleared and m_window.New allocates; New leaves the content unspecified,
    [init] is that content). *)
Definition win_new (init : list Z) : win := mkwin init 0 0 false [].

(** The end of OutputByte and of the loop of OutputString
    (zinflate.cpp:244-250 and 260-266): at the end of the window, hand out
    what has not been handed out and start again at the front. *)
Definition wrap_if_full (w : win) : win :=
  if wcur w =? length (wbuf w)
  then mkwin (wbuf w) 0 0 true (wsent w ++ skipn (wflush w) (wbuf w))
  else w.

(** Inflator::OutputByte (zinflate.cpp:241-251). *)
Definition output_byte (w : win) (b : Z) : res win :=
  if wcur w <? length (wbuf w)
  then Ok (wrap_if_full (mkwin (upd (wcur w) b (wbuf w)) (S (wcur w))
                               (wflush w) (wwrap w) (wsent w)))
  else Oob.

(** memcpy(m_window + at, s, |s|) (zinflate.cpp:258, 296). *)
Definition blit (w : win) (at_ : nat) (s : list Z) : res (list Z) :=
  if at_ + length s <=? length (wbuf w)
  then Ok (firstn at_ (wbuf w) ++ s ++ skipn (at_ + length s) (wbuf w))
  else Oob.

(** Inflator::OutputString (zinflate.cpp:253-270). [fuel] bounds the number of
    rounds of the while loop; running out is reported as [Oob], so that the
    theorems also say that the loop ends. *)
Fixpoint output_string (fuel : nat) (w : win) (s : list Z) : res win :=
  match s with
  | [] => Ok w
  | _ =>
    match fuel with
    | O => Oob
    | S fuel =>
      let len := Nat.min (length s) (length (wbuf w) - wcur w) in
      match blit w (wcur w) (firstn len s) with
      | Ok buf =>
        output_string fuel
          (wrap_if_full (mkwin buf (wcur w + len) (wflush w) (wwrap w) (wsent w)))
          (skipn len s)
      | Throw => Throw
      | Oob => Oob
      end
    end
  end.

(** The two byte by byte copies of OutputPast (zinflate.cpp:284-285: from
    start to the end of the window; 291-292: the remaining bytes): [n] times
    OutputByte(m_window[start++]). *)
Fixpoint copy_bytes (n start : nat) (w : win) : res win :=
  match n with
  | O => Ok w
  | S n =>
    match rd w start with
    | None => Oob
    | Some b =>
      match output_byte w b with
      | Ok w => copy_bytes n (S start) w
      | Throw => Throw
      | Oob => Oob
      end
    end
  end.

(** The second half of OutputPast (zinflate.cpp:289-298): byte by byte when
    source and target overlap or when the target reaches the end of the
    window, else one memcpy. *)
Definition copy_rest (length_ start : nat) (w : win) : res win :=
  if (wcur w <? start + length_) || (length (wbuf w) <=? wcur w + length_)
  then copy_bytes length_ start w
  else if start + length_ <=? length (wbuf w)
  then match blit w (wcur w) (firstn length_ (skipn start (wbuf w))) with
       | Ok buf => Ok (mkwin buf (wcur w + length_) (wflush w) (wwrap w) (wsent w))
       | Throw => Throw
       | Oob => Oob
       end
  else Oob.

(** Inflator::OutputPast (zinflate.cpp:272-299). *)
Definition output_past (length_ distance : nat) (w : win) : res win :=
  let size := length (wbuf w) in
  let go (start : nat) :=
    if size <? start + length_
    then match copy_bytes (size - start) start w with
         | Ok w => copy_rest (length_ - (size - start)) 0 w
         | Throw => Throw
         | Oob => Oob
         end
    else copy_rest length_ start w
  in
  if distance <=? wcur w then go (wcur w - distance)
  else if wwrap w && (distance <=? size) then go (wcur w + size - distance)
  else Throw.

(** Inflator::FlushOutput (zinflate.cpp:605-613), in every state but
    PRE_STREAM. *)
Definition flush_output (w : win) : win :=
  mkwin (wbuf w) (wcur w) (wcur w) (wwrap w)
        (wsent w ++ firstn (wcur w - wflush w) (skipn (wflush w) (wbuf w))).

(** What DecodeBody asks of the window (zinflate.cpp:496, 534, 575, 587) and
    what IsolatedFlush does (zinflate.cpp:324). *)
Inductive wop : Type :=
| OpByte (b : Z)
| OpString (s : list Z)
| OpPast (length_ distance : nat)
| OpFlush.

Definition wstep (w : win) (o : wop) : res win :=
  match o with
  | OpByte b => output_byte w b
  | OpString s => output_string (length s) w s
  | OpPast l d => output_past l d w
  | OpFlush => Ok (flush_output w)
  end.

(** A sequence of such requests; an exception ends it. *)
Fixpoint wrun (w : win) (l : list wop) : res win :=
  match l with
  | [] => Ok w
  | o :: l =>
    match wstep w o with
    | Ok w => wrun w l
    | Throw => Throw
    | Oob => Oob
    end
  end.
