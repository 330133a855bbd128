(** WrapProperties: C95 and C96, the zlib and gzip formats. *)
From Coq Require Import ZArith List Bool Arith Lia.
From Verif Require Import Base ChecksumSpec InflateModel InflateSpec DeflateModel DeflateSpec DeflateProofs.
From Verif Require Import WrapModel WrapSpec WrapProofs WrapFormat.
Import ListNotations.
Open Scope nat_scope.

(** In all theorems [u] is where the compiled Adler32 starts over with its sums
    (C67), [init n] is what the memory of a window of [n] bytes holds when it is
    made, and the input comes in [pieces] and [last], then the message ends. *)

(** * C95 *)

(** Whatever ZlibDecompressor puts out is the data of an RFC 1950 stream at the
    front of the input: the header, the compressed data and the checksum were
    all right.  Missing: inputs whose first byte has four zero bits at the top (a
    window of 256 bytes), of which it is false (C95_window_256_refuted). *)
Theorem C95_only_zlib_streams_partial : forall u init pieces last data rest m,
  (2 ^ 32 <= u)%Z -> (forall n, length (init n) = n) -> Forall bytes pieces -> bytes last ->
  (16 <= hd 0 (concat pieces ++ last))%Z ->
  zlib_decompress u init pieces last = Got (data, rest, m) -> zlib_stream false (concat pieces ++ last) data rest.
Proof. intros u init pieces last data rest m Hu HI HP HL H. eapply zlib_sound; eassumption. Qed.

(** Every stream is decoded, whatever follows it and however it is cut.  Missing:
    the same. *)
Theorem C95_zlib_streams_are_decoded_partial : forall u init pieces last data rest,
  (2 ^ 32 <= u)%Z -> (forall n, length (init n) = n) -> Forall bytes pieces -> bytes last -> bytes rest ->
  (16 <= hd 0 (concat pieces ++ last))%Z -> zlib_stream true (concat pieces ++ last) data rest ->
  exists m, zlib_decompress u init pieces last = Got (data, rest, m).
Proof. intros. apply zlib_complete; assumption. Qed.

(** What ZlibCompressor writes for each message, in any pieces and with flushes
    and changes of the level anywhere, is such a stream, and ZlibDecompressor
    gives the data back. *)
Theorem C95_round_trip : forall u k level detect buf prev pmatch plen ms,
  (2 ^ 32 <= u)%Z -> 9 <= k <= 15 -> level <= 9 -> length buf = 2 * 2 ^ k -> length prev = 2 ^ k ->
  Forall (Forall request_ok) ms ->
  exists outs, zlib_messages u k (deflator_new (2 ^ k) level detect buf prev pmatch plen) ms = Some outs
    /\ Forall2 (fun m out => (forall rest, zlib_stream true (out ++ rest) (message_data m) rest)
         /\ forall init pieces last rest, (forall n, length (init n) = n) -> Forall bytes pieces -> bytes last -> bytes rest ->
              concat pieces ++ last = out ++ rest ->
              exists w, zlib_decompress u init pieces last = Got (message_data m, rest, w)) ms outs.
Proof.
  intros u k level detect buf prev pmatch plen ms Hu Hk _ HB HP HM.
  destruct (messages_ok k (2 ^ k) Hk (le_n _) ms (deflator_new (2 ^ k) level detect buf prev pmatch plen) HM) as (outs0 & E & F).
  { apply deflator_new_idle; first [assumption | apply le_n]. }
  destruct (zlib_messages_shape u k _ _ _ _ E F) as (zs & EZ & FZ). exists zs. split; [exact EZ|].
  clear E F EZ. revert HM. induction FZ as [|m z ms zs (lv & o & [Q1 Q2] & ->) _ IH]; intros HM; constructor.
  - inversion HM as [|? ? HM1 _]; subst.
    assert (ST : forall rest, zlib_stream true ((zlib_prefix k lv ++ o ++ adler_of u (put_bytes m)) ++ rest) (message_data m) rest)
      by (intros rest; apply zlib_message_stream; assumption).
    split; [exact ST|]. intros init pieces last rest HI HPs HL HR EQ. apply zlib_complete; auto.
    + rewrite EQ. destruct (prefix_facts k lv Hk) as (cmf & flg & -> & B1 & _ & _ & _ & _ & K). cbn [app hd].
      unfold byte in B1. assert (1 <= cmf / 16)%Z by lia. pose proof (Z.mul_div_le cmf 16 ltac:(lia)). lia.
    + rewrite EQ. apply ST.
  - apply IH. inversion HM; assumption.
Qed.

(** A stream, in two pieces: ten times the letter a, and one more byte. *)
Example C95_example :
  zlib_messages (2 ^ 32) 9 (deflator_new 512 6 true (repeat 0%Z 1024) (repeat 0 512) 0 0) [[RPut (repeat 97%Z 10)]]
  = Some [[24; 149; 75; 76; 132; 1; 0; 20; 225; 3; 203]]%Z
  /\ zlib_decompress (2 ^ 32) (repeat 0%Z) [[24; 149; 75]%Z] [76; 132; 1; 0; 20; 225; 3; 203; 7]%Z
     = Got (repeat 97%Z 10, [7%Z], Some 9).
Proof. split; vm_compute; reflexivity. Qed.
(** A wrong checksum. *)
Example C95_example_checksum :
  zlib_decompress (2 ^ 32) (repeat 0%Z) [[24; 149; 75]%Z] [76; 132; 1; 0; 20; 225; 3; 204; 7]%Z = Refused Adler32Err.
Proof. vm_compute. reflexivity. Qed.

(** The window of 256 bytes, which the format allows: OutputPast reads the byte
    behind it (see C63). *)
Definition small_window : list Z :=
  [8; 29; 0; 0; 1; 255; 254]%Z ++ repeat 0%Z 256 ++ [27; 5; 0; 1; 0; 1; 0; 1]%Z.
Theorem C95_window_256_refuted : bytes small_window
  /\ zlib_decompress (2 ^ 32) (repeat 0%Z) [] small_window = Refused EWild.
Proof.
  split; [unfold small_window; repeat (apply bytes_app; split); try (apply Forall_forall; intros x Hx; apply repeat_spec in Hx; subst x; unfold byte; lia);
          repeat constructor; unfold byte; lia|].
  vm_compute. reflexivity.
Qed.

(** The stream of no data in a stored block. *)
Lemma aligned : forall l, align (BitioSpec.stream l) = BitioSpec.stream l.
Proof.
  intros l. unfold align. assert (L : length (BitioSpec.stream l) = 8 * length l).
  { unfold BitioSpec.stream. induction l as [|x l IH]; [reflexivity|]. cbn [flat_map length]. rewrite app_length, IH. cbn [BitioSpec.lsbs length]. lia. }
  rewrite L, Nat.mul_comm, Nat.mod_mul by lia. reflexivity.
Qed.
Lemma empty_stored : forall W rest, deflated true W ([1; 0; 0; 255; 255]%Z ++ rest) [] rest.
Proof.
  intros W rest. unfold deflated. rewrite <- (aligned rest).
  eapply (inf_last true W [] _ 0 (false :: false :: repeat false 5 ++ BitioSpec.stream ([0; 0; 255; 255]%Z ++ rest)) _ []).
  - reflexivity.
  - split; [cbn; lia|]. cbn [Z.of_nat]. reflexivity.
  - apply (blk_stored true W [] _ 0 [] (BitioSpec.stream rest)); try reflexivity; try lia; [|constructor].
    change (repeat false 5 ++ BitioSpec.stream ([0; 0; 255; 255]%Z ++ rest)) with (repeat false 5 ++ (BitioSpec.stream [0; 0; 255; 255]%Z ++ BitioSpec.stream rest)).
    assert (A : forall s, length s mod 8 = 0 -> align (repeat false 5 ++ s) = s).
    { intros s Hs. unfold align. rewrite app_length, repeat_length. rewrite Nat.add_mod, Hs by lia. reflexivity. }
    rewrite A; [reflexivity|]. pose proof (aligned ([0; 0; 255; 255]%Z ++ rest)) as X. unfold align in X.
    apply (f_equal (@length bool)) in X. rewrite skipn_length in X. change (BitioSpec.stream [0; 0; 255; 255]%Z ++ BitioSpec.stream rest) with (BitioSpec.stream ([0; 0; 255; 255]%Z ++ rest)).
    assert (length (BitioSpec.stream ([0; 0; 255; 255]%Z ++ rest)) > 0) by (cbn; lia).
    pose proof (Nat.mod_le (length (BitioSpec.stream ([0; 0; 255; 255]%Z ++ rest))) 8 ltac:(lia)). lia.
Qed.

(** Windows larger than the format allows are accepted: here 2^16 bytes. *)
Theorem C95_window_bound_refuted : exists comp,
  (forall u init pieces last, (2 ^ 32 <= u)%Z -> (forall n, length (init n) = n) -> Forall bytes pieces -> bytes last ->
     concat pieces ++ last = comp -> exists m, zlib_decompress u init pieces last = Got ([], [], m))
  /\ forall data rest, ~ zlib_stream true comp data rest.
Proof.
  exists ([136; 28]%Z ++ [1; 0; 0; 255; 255]%Z ++ adler_spec []). split.
  - intros u init pieces last Hu HI HP HL EQ.
    pose proof (zlib_spec u init HI pieces last HP HL) as ZS. rewrite EQ in ZS. specialize (ZS ltac:(cbn; lia)).
    assert (G : stream_of nat zlib_header (zlib_tail u) 2 true ([136; 28]%Z ++ [1; 0; 0; 255; 255]%Z ++ adler_spec []) [] [] 16).
    { exists (2 ^ (8 + Z.to_nat (136 / 16))), ([1; 0; 0; 255; 255]%Z ++ adler_spec []), (adler_spec [] ++ []).
      split; [apply (zlib_header_ok 136 28); reflexivity|]. split; [cbn [app length]; lia|].
      split; [rewrite app_nil_r; apply be_bytes_bytes|]. split; [|apply zlib_tail_ok; [exact Hu|constructor]].
      rewrite app_nil_r. apply empty_stored. }
    destruct (zlib_decompress u init pieces last) as [[[data' rest'] m]|err].
    + destruct ZS as [_ U]. destruct (U _ _ _ G) as [<- <-]. eauto.
    + destruct (ZS _ _ _ G).
  - intros data rest (cmf & flg & body & E & _ & L & _). injection E as <- _ _. specialize (L eq_refl). vm_compute in L. apply L. reflexivity.
Qed.

(** * C96 *)

(** Whatever Gunzip puts out is the data of an RFC 1952 member at the front of
    the input, and what it reports is the time, the name and the comment in its
    header. *)
Theorem C96_only_gzip_members : forall init pieces last data rest m,
  (forall n, length (init n) = n) -> Forall bytes pieces -> bytes last ->
  gunzip init pieces last = Got (data, rest, m) ->
  exists time name comment hdr body, m = Some (mkmeta time name comment) /\ concat pieces ++ last = hdr ++ body
    /\ gzip_header false hdr time name comment /\ gzip_body false body data rest.
Proof.
  intros init pieces last data rest m HI HP HL H. destruct (gunzip_sound init HI _ _ _ _ _ HP HL H) as (m0 & hdr & body & -> & E & H1 & H2).
  destruct m0 as [t n c]. exists t, n, c, hdr, body. auto.
Qed.

(** Every member with a header of at most 1024 bytes, and no CRC16 of it, is
    decoded, whatever follows it and however it is cut.  Missing: the others, of
    which it is false (C96_header_crc_refuted, C96_long_header_refuted). *)
Theorem C96_gzip_members_are_decoded_partial : forall init pieces last hdr body time name comment data rest,
  (forall n, length (init n) = n) -> Forall bytes pieces -> bytes last -> bytes rest ->
  concat pieces ++ last = hdr ++ body -> length hdr <= 1024 ->
  gzip_header true hdr time name comment -> gzip_body true body data rest ->
  gunzip init pieces last = Got (data, rest, Some (mkmeta time name comment)).
Proof. intros init pieces last hdr body time name comment data rest HI HP HL HR E LH H1 H2. eapply gunzip_complete; eassumption. Qed.

(** What was set for a message: a word of 32 bits, and strings without a zero
    byte, together short enough for the limit of 1024 bytes. *)
Definition told (o : option (list Z)) : list Z := match o with Some l => l | None => [] end.
Definition settings_ok (x : settings) : Prop :=
  match s_time x with Some t => (0 <= t < 2 ^ 32)%Z | None => True end
  /\ Forall (fun b => (0 < b < 256)%Z) (told (s_name x)) /\ Forall (fun b => (0 < b < 256)%Z) (told (s_comment x))
  /\ length (told (s_name x)) + length (told (s_comment x)) <= 1012.

(** What Gzip writes for each message is such a member, with the time, name and
    comment that were set since the last one, and Gunzip gives all of it back. *)
Theorem C96_round_trip : forall os k level detect buf prev pmatch plen ms,
  byte os -> 9 <= k <= 15 -> level <= 9 -> length buf = 2 * 2 ^ k -> length prev = 2 ^ k ->
  Forall (fun xm => settings_ok (fst xm) /\ Forall request_ok (snd xm)) ms ->
  exists outs, gzip_messages os k gzip_new (deflator_new (2 ^ k) level detect buf prev pmatch plen) ms = Some outs
    /\ Forall2 (fun xm out =>
         let time := match s_time (fst xm) with Some t => t | None => 0%Z end in
         let name := told (s_name (fst xm)) in let comment := told (s_comment (fst xm)) in
         (exists hdr body, out = hdr ++ body /\ length hdr <= 1024 /\ bytes hdr /\ gzip_header true hdr time name comment
            /\ forall rest, gzip_body true (body ++ rest) (message_data (snd xm)) rest)
         /\ forall init pieces last rest, (forall n, length (init n) = n) -> Forall bytes pieces -> bytes last -> bytes rest ->
              concat pieces ++ last = out ++ rest ->
              gunzip init pieces last = Got (message_data (snd xm), rest, Some (mkmeta time name comment))) ms outs.
Proof.
  intros os k level detect buf prev pmatch plen ms Ho Hk _ HB HP HM.
  assert (KW : 2 ^ k <= 2 ^ 15) by (apply Nat.pow_le_mono_r; lia).
  assert (HM2 : Forall (Forall request_ok) (map snd ms)) by (apply Forall_map; eapply Forall_impl; [|exact HM]; intros a Ha; apply Ha).
  destruct (messages_ok k (2 ^ 15) Hk KW (map snd ms) (deflator_new (2 ^ k) level detect buf prev pmatch plen) HM2) as (outs0 & E & F).
  { apply deflator_new_idle; first [assumption | apply le_n]. }
  destruct (gzip_messages_shape os k _ _ _ gzip_new _ E F) as (zs & EZ & FZ); [destruct ms; [exact I|reflexivity]|].
  exists zs. split; [exact EZ|].
  clear E F EZ HM2. revert HM. induction FZ as [|[x m] z ms zs (lv & o & [Q1 Q2] & ->) _ IH]; intros HM; constructor.
  - inversion HM as [|? ? [[HT [HN [HC HL]]] HM1] _]; subst. cbn [fst snd] in *.
    set (g := apply_settings x gzip_new).
    assert (NZ : forall l, Forall (fun b => (0 < b < 256)%Z) l -> bytes l /\ ~ In 0%Z l).
    { intros l Hl. rewrite Forall_forall in Hl. split; [apply Forall_forall; intros b Hb; specialize (Hl b Hb); unfold byte; lia|].
      intros Hb. specialize (Hl _ Hb). lia. }
    assert (G1 : g_time g = match s_time x with Some t => t | None => 0%Z end) by reflexivity.
    assert (G2 : g_name g = told (s_name x)) by reflexivity. assert (G3 : g_comment g = told (s_comment x)) by reflexivity.
    destruct (NZ _ HN) as [N1 N2]. destruct (NZ _ HC) as [C1 C2].
    assert (GM : forall rest, gzip_header true (gzip_prefix os g lv) (g_time g) (g_name g) (g_comment g)
                 /\ gzip_body true ((o ++ gzip_suffix (put_bytes m)) ++ rest) (message_data m) rest).
    { intros rest. apply gzip_message_member; try assumption. rewrite G1; destruct (s_time x); lia. }
    assert (LH : length (gzip_prefix os g lv) <= 1024).
    { rewrite gzip_prefix_length, G2, G3. destruct (length (told (s_name x)) =? 0), (length (told (s_comment x)) =? 0); lia. }
    rewrite <- G1, <- G2, <- G3. destruct (GM []) as [GH _]. split.
    + exists (gzip_prefix os g lv), (o ++ gzip_suffix (put_bytes m)). split; [reflexivity|]. split; [exact LH|].
      split; [apply gzip_prefix_bytes; [exact Ho|rewrite G2; exact N1|rewrite G3; exact C1]|]. split; [exact GH|]. intros rest. apply (GM rest).
    + intros init pieces last rest HI HPs HLs HR EQ. destruct (GM rest) as [_ GB].
      rewrite <- app_assoc in EQ. eapply gunzip_complete; eassumption.
  - apply IH. inversion HM; assumption.
Qed.

(** The hypotheses hold and the run is: a name and a comment for the first
    message, neither for the second. *)
Definition example_gzip : list (settings * list request) :=
  [(mkset (Some 5%Z) (Some [97%Z]) (Some [98; 99]%Z), [RPut [97%Z]; RPut [97%Z]]); (mkset None None None, [RFlush true])].
Example C96_example_hypotheses : Forall (fun xm => settings_ok (fst xm) /\ Forall request_ok (snd xm)) example_gzip.
Proof. repeat constructor; cbn; lia. Qed.
Example C96_example :
  gzip_messages 3 9 gzip_new (deflator_new 512 9 true (repeat 0%Z 1024) (repeat 0 512) 0 0) example_gzip
  = Some [[31; 139; 8; 24; 5; 0; 0; 0; 2; 3; 97; 0; 98; 99; 0; 75; 76; 4; 0; 215; 25; 138; 7; 2; 0; 0; 0];
          [31; 139; 8; 0; 0; 0; 0; 0; 2; 3; 0; 0; 0; 255; 255; 3; 0; 0; 0; 0; 0; 0; 0; 0; 0]]%Z.
Proof. vm_compute. reflexivity. Qed.

(** A header with a CRC16, which the format allows, is refused. *)
Theorem C96_header_crc_refuted : forall init, gunzip init [] ([31; 139; 8; 2; 0; 0; 0; 0; 0; 3; 167; 119; 3; 0] ++ repeat 0 8)%Z = Refused HeaderErr.
Proof. reflexivity. Qed.

(** A header of more than 1024 bytes is refused if its end is not there when the
    limit is passed. *)
Lemma empty_body : gzip_body true ([1; 0; 0; 255; 255] ++ repeat 0 8)%Z [] [].
Proof. apply empty_stored. Qed.
Theorem C96_long_header_refuted : exists hdr body time name comment first second,
  gzip_header true hdr time name comment /\ gzip_body true body [] [] /\ first ++ second = hdr ++ body /\ bytes first /\ bytes second
  /\ forall init, gunzip init [first] second = Refused HeaderErr.
Proof.
  set (name := repeat 97%Z 1100). set (body := ([1; 0; 0; 255; 255] ++ repeat 0 8)%Z).
  set (hdr := [31; 139; 8; 8]%Z ++ le_bytes 4 0 ++ [0; 3]%Z ++ [] ++ (name ++ [0%Z]) ++ []).
  assert (BY : bytes (hdr ++ body)) by (apply Forall_forall; intros b Hb;
    assert (X : forallb (fun b => (0 <=? b) && (b <? 256))%Z (hdr ++ body) = true) by (vm_compute; reflexivity);
    rewrite forallb_forall in X; specialize (X b Hb); apply andb_prop in X as [X1 X2]; unfold byte; lia).
  exists hdr, body, 0%Z, name, [], (firstn 1030 (hdr ++ body)), (skipn 1030 (hdr ++ body)).
  split; [|split; [exact empty_body|split; [apply firstn_skipn|split; [apply Forall_firstn; exact BY|split; [apply Forall_skipn; exact BY|]]]]].
  - exists 8%Z, 0%Z, 3%Z, [], (name ++ [0%Z]), []. split; [reflexivity|]. split; [lia|]. do 2 (split; [reflexivity|]).
    split; [intros _; split; reflexivity|]. split; [reflexivity|]. split; [|split; reflexivity].
    split; [|reflexivity]. intros Hx. apply repeat_spec in Hx. discriminate.
  - intros init. vm_compute. reflexivity.
Qed.

(** A name with a zero byte in it never comes back. *)
Theorem C96_zero_byte_in_name_refuted : exists out,
  gzip_messages 3 9 gzip_new (deflator_new 512 9 true (repeat 0%Z 1024) (repeat 0 512) 0 0)
    [(mkset None (Some [97; 0; 98]%Z) None, [RPut [97%Z]])] = Some [out]
  /\ bytes out /\ forall init pieces last, (forall n, length (init n) = n) -> Forall bytes pieces -> bytes last -> concat pieces ++ last = out ->
     forall data rest time comment, gunzip init pieces last <> Got (data, rest, Some (mkmeta time [97; 0; 98]%Z comment)).
Proof.
  eexists. split; [vm_compute; reflexivity|]. split; [repeat constructor; unfold byte; lia|].
  intros init pieces last HI HP HL _ data rest time comment H.
  destruct (C96_only_gzip_members _ _ _ _ _ _ HI HP HL H) as (t & n & c & hdr & body & E & _ & (flg & xfl & os & ef & nf & cf & _ & _ & _ & _ & _ & _ & SF & _) & _).
  injection E as <- <- <-. unfold string_field in SF. destruct (Z.testbit flg 3); [|destruct SF; discriminate].
  apply (proj1 SF). right. left. reflexivity.
Qed.

(** The upper reserved bits of the flags, which must be zero, are not looked at. *)
Theorem C96_reserved_bits_refuted : exists comp,
  (forall init pieces last, (forall n, length (init n) = n) -> Forall bytes pieces -> bytes last -> concat pieces ++ last = comp ->
     gunzip init pieces last = Got ([], [], Some (mkmeta 0 [] [])))
  /\ forall hdr body time name comment, comp = hdr ++ body -> ~ gzip_header true hdr time name comment.
Proof.
  exists ([31; 139; 8; 192]%Z ++ le_bytes 4 0 ++ [0; 3]%Z ++ [] ++ [] ++ [] ++ [1; 0; 0; 255; 255]%Z ++ repeat 0%Z 8). split.
  - intros init pieces last HI HP HL EQ.
    pose proof (gunzip_spec init HI pieces last HP HL) as ZS. rewrite EQ in ZS.
    assert (FO : gunzip_fields ([31; 139; 8; 192]%Z ++ le_bytes 4 0 ++ [0; 3]%Z ++ [] ++ [] ++ [] ++ [1; 0; 0; 255; 255]%Z ++ repeat 0%Z 8)
                 = Some (mkmeta 0 [] [], [1; 0; 0; 255; 255]%Z ++ repeat 0%Z 8)) by reflexivity.
    assert (G : stream_of meta gunzip_header gunzip_tail 1024 true
                  ([31; 139; 8; 192]%Z ++ le_bytes 4 0 ++ [0; 3]%Z ++ [] ++ [] ++ [] ++ [1; 0; 0; 255; 255]%Z ++ repeat 0%Z 8) [] [] (mkmeta 0 [] [])).
    { exists (2 ^ 15), ([1; 0; 0; 255; 255]%Z ++ repeat 0%Z 8), (repeat 0%Z 8).
      split; [unfold gunzip_header; rewrite FO; reflexivity|]. split; [intros _; rewrite !app_length, le_bytes_length, repeat_length; cbn [length]; lia|].
      split; [repeat constructor; unfold byte; lia|]. split; [rewrite window_15; exact empty_body|]. reflexivity. }
    destruct (gunzip init pieces last) as [[[data' rest'] m]|err].
    + destruct ZS as [(m0 & -> & (W & r & tl & X1 & _)) U]. destruct (U _ _ _ G) as [<- <-].
      unfold gunzip_header in X1. rewrite FO in X1. apply got_inv in X1 as (_ & <- & _). reflexivity.
    + destruct (ZS _ _ _ G).
  - intros hdr body time name comment E (flg & xfl & os & ef & nf & cf & -> & _ & _ & _ & HR & _).
    cbn [app] in E. injection E as <- _. destruct (HR eq_refl) as [X _]. discriminate.
Qed.

Print Assumptions C95_only_zlib_streams_partial.
Print Assumptions C95_zlib_streams_are_decoded_partial.
Print Assumptions C95_round_trip.
Print Assumptions C95_window_256_refuted.
Print Assumptions C95_window_bound_refuted.
Print Assumptions C96_only_gzip_members.
Print Assumptions C96_gzip_members_are_decoded_partial.
Print Assumptions C96_round_trip.
Print Assumptions C96_header_crc_refuted.
Print Assumptions C96_long_header_refuted.
Print Assumptions C96_zero_byte_in_name_refuted.
Print Assumptions C96_reserved_bits_refuted.
