(** InflateProperties: C92, Inflator and the format of RFC 1951. *)
From Coq Require Import ZArith List Bool Lia.
From Verif Require Import Base BitioSpec HuffmanSpec WindowSpec InflateModel InflateSpec InflateStream.
Import ListNotations.
Open Scope Z_scope.

(** Whatever comes out is the data of a compressed stream at the front of the
    input, followed by the rest of the input; for every input and every way to
    cut it into pieces.  [init] is what the memory of the window holds. *)
Theorem C92_only_deflated_streams : forall init pieces last out,
  (257 <= length init)%nat -> Forall bytes pieces -> bytes last ->
  inflate init pieces last = Fine out ->
  exists data rest, bytes rest /\ out = data ++ rest
    /\ deflated false (length init) (concat pieces ++ last) data rest.
Proof. exact inflate_sound. Qed.

(** A stream of the format that three bytes or more come after is decoded to its
    data, whatever the pieces and what the window held; what comes after is
    passed on.  (ZlibDecompressor and Gunzip read a trailer of at least four.) *)
Theorem C92_deflated_streams_are_decoded : forall init pieces last data rest,
  (257 <= length init)%nat -> Forall bytes pieces -> bytes last -> bytes rest -> (3 <= length rest)%nat ->
  deflated true (length init) (concat pieces ++ last) data rest ->
  inflate init pieces last = Fine (data ++ rest).
Proof. exact inflate_complete. Qed.

(** So the pieces do not matter. *)
Theorem C92_pieces_do_not_matter : forall init init' pieces last pieces' last' data rest,
  (257 <= length init)%nat -> length init' = length init -> Forall bytes pieces -> bytes last ->
  Forall bytes pieces' -> bytes last' -> bytes rest -> (3 <= length rest)%nat ->
  concat pieces ++ last = concat pieces' ++ last' ->
  deflated true (length init) (concat pieces ++ last) data rest ->
  inflate init pieces last = inflate init' pieces' last'.
Proof.
  intros init init' pieces last pieces' last' data rest HW HI H1 H2 H3 H4 H5 H6 E H.
  rewrite (inflate_complete init pieces last data rest) by auto.
  rewrite (inflate_complete init' pieces' last' data rest); auto; try (rewrite HI; auto).
  rewrite <- E. exact H.
Qed.

(** Without anything after it a stream can be refused: here the last block is a
    stored one of no bytes. *)
Theorem C92_end_of_input_refuted :
  exists comp, deflated true 257 comp [] [] /\ inflate (repeat 0 257) [] comp = UnexpectedEnd.
Proof.
  exists [1; 0; 0; 255; 255]. split; [|reflexivity].
  unfold deflated. eapply (inf_last true 257 [] _ 0%nat _ _ [] []).
  - reflexivity.
  - split; [cbn; lia|reflexivity].
  - apply (blk_stored true 257 [] _ 0 [] [] []); try reflexivity; try lia. constructor.
Qed.

(** An input can make DecodeHeader write two entries after the end of its table
    of code lengths: 286 + 32 entries, but up to 288 + 32 are read. *)
Theorem C92_table_bound_refuted :
  exists comp, bytes comp /\ inflate (repeat 0 257) [] comp = Wild.
Proof. exists [253; 31; 144; 224; 255; 127; 8]. split; [repeat constructor; unfold byte; lia|vm_compute; reflexivity]. Qed.

(** An input that ends inside the lengths of the code length code makes SkipBits
    subtract more bits than there are. *)
Theorem C92_truncated_header_refuted :
  exists comp, bytes comp /\ length comp = 3%nat /\ inflate (repeat 0 257) [] comp = Wild.
Proof. exists [253; 31; 0]. split; [repeat constructor; unfold byte; lia|]. split; [reflexivity|vm_compute; reflexivity]. Qed.

(** Ten times the letter a, in a block with the fixed codes: a literal and a pair
    (9, 1); four bytes come after. *)
Definition ten_a : list Z := [75; 132; 3; 0; 1; 2; 3; 4].
Example C92_example : deflated true 257 ten_a (repeat 97 10) [1; 2; 3; 4].
Proof.
  unfold deflated. change (stream [1; 2; 3; 4]) with (align (false :: false :: stream [1; 2; 3; 4])).
  change (repeat 97 10) with (lz_copy 9 1 [97]).
  eapply (inf_last true 257 [] _ 1%nat).
  - reflexivity.
  - split; [cbn; lia|reflexivity].
  - apply blk_fixed. eapply (sym_literal _ _ _ _ _ _ 97%nat).
    + split; [discriminate|reflexivity].
    + lia.
    + eapply (sym_match _ _ _ _ _ _ 263%nat _ _ _ 0%nat _ 0%nat _ _ _ 0%nat).
      * split; [discriminate|reflexivity].
      * lia.
      * reflexivity.
      * split; [cbn; lia|reflexivity].
      * split; [discriminate|reflexivity].
      * reflexivity.
      * split; [cbn; lia|reflexivity].
      * cbn; lia.
      * cbn; lia.
      * apply sym_end. split; [discriminate|reflexivity].
Qed.

Example C92_example_decoded :
  inflate (repeat 0 257) [[75]; []; [132; 3]] [0; 1; 2; 3; 4] = Fine (repeat 97 10 ++ [1; 2; 3; 4]).
Proof.
  apply C92_deflated_streams_are_decoded; try (repeat constructor; unfold byte; lia); try (cbn; lia).
  exact C92_example.
Qed.

Print Assumptions C92_only_deflated_streams.
Print Assumptions C92_deflated_streams_are_decoded.
Print Assumptions C92_pieces_do_not_matter.
Print Assumptions C92_end_of_input_refuted.
Print Assumptions C92_table_bound_refuted.
Print Assumptions C92_truncated_header_refuted.
