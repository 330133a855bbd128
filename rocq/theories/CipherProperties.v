(** Theorems about the block ciphers. *)
From Coq Require Import ZArith List Bool Arith Lia.
From Verif Require Import Base CipherModel CipherSpec CipherProofs CipherBteaProofs CipherTfProofs.
Import ListNotations.
Local Open Scope Z_scope.

(* ------------------------------------------------------------------ *)
(** ** C57: block ciphers are permutations

    For every key of a valid length (and every number of rounds the key setup accepts, every tweak),
    both objects answer on every block, the decryption object undoes the encryption object, the
    encryption object undoes the decryption object, and a mask is exclusive-ored to the result. *)

(** TEA and XTEA: rounds is an int of at least 1. The loops count with a 32-bit sum that is compared with
    rounds * DELTA; they stop after exactly that many rounds. *)
Theorem C57_tea : forall key rounds, 1 <= rounds < 2 ^ 31 ->
  block_cipher 8 (tea_enc key rounds) (tea_dec key rounds).
Proof. exact tea_cipher. Qed.
Example C57_tea_example :
  tea_enc [0; 0; 0; 0; 0; 0; 0; 0; 0; 0; 0; 0; 65; 234; 58; 10] 32 [148; 186; 169; 64; 0; 0; 0; 0] None = Some [78; 142; 120; 41; 125; 130; 54; 216] /\ tea_dec [0; 0; 0; 0; 0; 0; 0; 0; 0; 0; 0; 0; 65; 234; 58; 10] 32 [78; 142; 120; 41; 125; 130; 54; 216] None = Some [148; 186; 169; 64; 0; 0; 0; 0].
Proof. vm_compute. split; reflexivity. Qed.

Theorem C57_xtea : forall key rounds, 1 <= rounds < 2 ^ 31 ->
  block_cipher 8 (xtea_enc key rounds) (xtea_dec key rounds).
Proof. exact xtea_cipher. Qed.
Example C57_xtea_example :
  xtea_enc [17; 79; 109; 116; 188; 58; 125; 226; 132; 88; 70; 207; 39; 148; 161; 39] 7 [79; 62; 75; 106; 236; 1; 161; 222] None = Some [107; 142; 168; 184; 217; 158; 102; 195] /\ xtea_dec [17; 79; 109; 116; 188; 58; 125; 226; 132; 88; 70; 207; 39; 148; 161; 39] 7 [107; 142; 168; 184; 217; 158; 102; 195] None = Some [79; 62; 75; 106; 236; 1; 161; 222].
Proof. vm_compute. split; reflexivity. Qed.

(** RC5 and RC6, any key length and any number of rounds. *)
Theorem C57_rc5 : forall key r, block_cipher 8 (rc5_enc key r) (rc5_dec key r).
Proof. exact rc5_cipher. Qed.
Example C57_rc5_example :
  rc5_enc [145; 95; 70; 25; 190; 65; 178; 81; 99; 85; 165; 1; 16; 169; 206; 145] 12 [33; 165; 219; 238; 21; 75; 143; 109] None = Some [247; 192; 19; 172; 91; 43; 137; 82] /\ rc5_dec [145; 95; 70; 25; 190; 65; 178; 81; 99; 85; 165; 1; 16; 169; 206; 145] 12 [247; 192; 19; 172; 91; 43; 137; 82] None = Some [33; 165; 219; 238; 21; 75; 143; 109].
Proof. vm_compute. split; reflexivity. Qed.

Theorem C57_rc6 : forall key r, block_cipher 16 (rc6_enc key r) (rc6_dec key r).
Proof. exact rc6_cipher. Qed.
Example C57_rc6_example :
  rc6_enc [0; 0; 0; 0; 0; 0; 0; 0; 0; 0; 0; 0; 0; 0; 0; 0] 20 [0; 0; 0; 0; 0; 0; 0; 0; 0; 0; 0; 0; 0; 0; 0; 0] None = Some [143; 195; 165; 54; 86; 177; 247; 120; 193; 41; 223; 78; 152; 72; 164; 30] /\ rc6_dec [0; 0; 0; 0; 0; 0; 0; 0; 0; 0; 0; 0; 0; 0; 0; 0] 20 [143; 195; 165; 54; 86; 177; 247; 120; 193; 41; 223; 78; 152; 72; 164; 30] None = Some [0; 0; 0; 0; 0; 0; 0; 0; 0; 0; 0; 0; 0; 0; 0; 0].
Proof. vm_compute. split; reflexivity. Qed.

(** SPECK and SIMON, every key length they accept. *)
Theorem C57_speck64 : forall key, bytes key -> length key = 12%nat \/ length key = 16%nat ->
  block_cipher 8 (speck64_enc key) (speck64_dec key).
Proof. exact speck64_cipher. Qed.
Example C57_speck64_example :
  speck64_enc [0; 1; 2; 3; 8; 9; 10; 11; 16; 17; 18; 19; 24; 25; 26; 27] [45; 67; 117; 116; 116; 101; 114; 59] None = Some [139; 2; 78; 69; 72; 165; 111; 140] /\ speck64_dec [0; 1; 2; 3; 8; 9; 10; 11; 16; 17; 18; 19; 24; 25; 26; 27] [139; 2; 78; 69; 72; 165; 111; 140] None = Some [45; 67; 117; 116; 116; 101; 114; 59].
Proof. vm_compute. split; reflexivity. Qed.

Theorem C57_speck128 : forall key, bytes key -> length key = 16%nat \/ length key = 24%nat \/ length key = 32%nat ->
  block_cipher 16 (speck128_enc key) (speck128_dec key).
Proof. exact speck128_cipher. Qed.
Example C57_speck128_example :
  speck128_enc [0; 1; 2; 3; 4; 5; 6; 7; 8; 9; 10; 11; 12; 13; 14; 15; 16; 17; 18; 19; 20; 21; 22; 23] [101; 110; 116; 32; 116; 111; 32; 67; 104; 105; 101; 102; 32; 72; 97; 114] None = Some [134; 24; 60; 224; 93; 24; 188; 249; 102; 85; 19; 19; 58; 207; 228; 27] /\ speck128_dec [0; 1; 2; 3; 4; 5; 6; 7; 8; 9; 10; 11; 12; 13; 14; 15; 16; 17; 18; 19; 20; 21; 22; 23] [134; 24; 60; 224; 93; 24; 188; 249; 102; 85; 19; 19; 58; 207; 228; 27] None = Some [101; 110; 116; 32; 116; 111; 32; 67; 104; 105; 101; 102; 32; 72; 97; 114].
Proof. vm_compute. split; reflexivity. Qed.

Theorem C57_simon64 : forall key, bytes key -> length key = 12%nat \/ length key = 16%nat ->
  block_cipher 8 (simon64_enc key) (simon64_dec key).
Proof. exact simon64_cipher. Qed.
Example C57_simon64_example :
  simon64_enc [0; 1; 2; 3; 8; 9; 10; 11; 16; 17; 18; 19; 24; 25; 26; 27] [117; 110; 100; 32; 108; 105; 107; 101] None = Some [122; 160; 223; 185; 32; 252; 200; 68] /\ simon64_dec [0; 1; 2; 3; 8; 9; 10; 11; 16; 17; 18; 19; 24; 25; 26; 27] [122; 160; 223; 185; 32; 252; 200; 68] None = Some [117; 110; 100; 32; 108; 105; 107; 101].
Proof. vm_compute. split; reflexivity. Qed.

Theorem C57_simon128 : forall key, bytes key -> length key = 16%nat \/ length key = 24%nat \/ length key = 32%nat ->
  block_cipher 16 (simon128_enc key) (simon128_dec key).
Proof. exact simon128_cipher. Qed.
Example C57_simon128_example :
  simon128_enc [0; 1; 2; 3; 4; 5; 6; 7; 8; 9; 10; 11; 12; 13; 14; 15; 16; 17; 18; 19; 20; 21; 22; 23] [114; 105; 98; 101; 32; 119; 104; 101; 110; 32; 116; 104; 101; 114; 101; 32] None = Some [91; 184; 151; 37; 110; 141; 156; 108; 79; 13; 220; 252; 239; 97; 172; 196] /\ simon128_dec [0; 1; 2; 3; 4; 5; 6; 7; 8; 9; 10; 11; 12; 13; 14; 15; 16; 17; 18; 19; 20; 21; 22; 23] [91; 184; 151; 37; 110; 141; 156; 108; 79; 13; 220; 252; 239; 97; 172; 196] None = Some [114; 105; 98; 101; 32; 119; 104; 101; 110; 32; 116; 104; 101; 114; 101; 32].
Proof. vm_compute. split; reflexivity. Qed.

(** Threefish, every key and every tweak or none. *)
Theorem C57_threefish256 : forall key tweak, block_cipher 32 (threefish256_enc key tweak) (threefish256_dec key tweak).
Proof. intros. apply (tf_cipher 4); apply tf256_check. Qed.
Example C57_threefish256_example :
  threefish256_enc [16; 17; 18; 19; 20; 21; 22; 23; 24; 25; 26; 27; 28; 29; 30; 31; 32; 33; 34; 35; 36; 37; 38; 39; 40; 41; 42; 43; 44; 45; 46; 47] (Some [0; 1; 2; 3; 4; 5; 6; 7; 8; 9; 10; 11; 12; 13; 14; 15]) [255; 254; 253; 252; 251; 250; 249; 248; 247; 246; 245; 244; 243; 242; 241; 240; 239; 238; 237; 236; 235; 234; 233; 232; 231; 230; 229; 228; 227; 226; 225; 224] None = Some [224; 208; 145; 255; 14; 234; 143; 223; 201; 129; 146; 230; 46; 216; 10; 213; 157; 134; 93; 8; 88; 141; 244; 118; 101; 112; 86; 181; 149; 94; 151; 223] /\ threefish256_dec [16; 17; 18; 19; 20; 21; 22; 23; 24; 25; 26; 27; 28; 29; 30; 31; 32; 33; 34; 35; 36; 37; 38; 39; 40; 41; 42; 43; 44; 45; 46; 47] (Some [0; 1; 2; 3; 4; 5; 6; 7; 8; 9; 10; 11; 12; 13; 14; 15]) [224; 208; 145; 255; 14; 234; 143; 223; 201; 129; 146; 230; 46; 216; 10; 213; 157; 134; 93; 8; 88; 141; 244; 118; 101; 112; 86; 181; 149; 94; 151; 223] None = Some [255; 254; 253; 252; 251; 250; 249; 248; 247; 246; 245; 244; 243; 242; 241; 240; 239; 238; 237; 236; 235; 234; 233; 232; 231; 230; 229; 228; 227; 226; 225; 224].
Proof. vm_compute. split; reflexivity. Qed.

Theorem C57_threefish512 : forall key tweak, block_cipher 64 (threefish512_enc key tweak) (threefish512_dec key tweak).
Proof. intros. apply (tf_cipher 8); apply tf512_check. Qed.
Example C57_threefish512_example :
  threefish512_enc [16; 17; 18; 19; 20; 21; 22; 23; 24; 25; 26; 27; 28; 29; 30; 31; 32; 33; 34; 35; 36; 37; 38; 39; 40; 41; 42; 43; 44; 45; 46; 47; 48; 49; 50; 51; 52; 53; 54; 55; 56; 57; 58; 59; 60; 61; 62; 63; 64; 65; 66; 67; 68; 69; 70; 71; 72; 73; 74; 75; 76; 77; 78; 79] (Some [0; 1; 2; 3; 4; 5; 6; 7; 8; 9; 10; 11; 12; 13; 14; 15]) [255; 254; 253; 252; 251; 250; 249; 248; 247; 246; 245; 244; 243; 242; 241; 240; 239; 238; 237; 236; 235; 234; 233; 232; 231; 230; 229; 228; 227; 226; 225; 224; 223; 222; 221; 220; 219; 218; 217; 216; 215; 214; 213; 212; 211; 210; 209; 208; 207; 206; 205; 204; 203; 202; 201; 200; 199; 198; 197; 196; 195; 194; 193; 192] None = Some [227; 4; 67; 150; 38; 212; 90; 44; 180; 1; 202; 216; 214; 54; 36; 154; 99; 56; 51; 14; 176; 109; 69; 221; 139; 54; 185; 14; 151; 37; 71; 121; 39; 42; 10; 141; 153; 70; 53; 4; 120; 68; 32; 234; 24; 201; 167; 37; 175; 17; 223; 254; 161; 1; 98; 52; 137; 39; 103; 61; 92; 28; 175; 61].
Proof. vm_compute. reflexivity. Qed.

Theorem C57_threefish1024 : forall key tweak, block_cipher 128 (threefish1024_enc key tweak) (threefish1024_dec key tweak).
Proof. intros. apply (tf_cipher 16); apply tf1024_check. Qed.
Example C57_threefish1024_example :
  threefish1024_enc [16; 17; 18; 19; 20; 21; 22; 23; 24; 25; 26; 27; 28; 29; 30; 31; 32; 33; 34; 35; 36; 37; 38; 39; 40; 41; 42; 43; 44; 45; 46; 47; 48; 49; 50; 51; 52; 53; 54; 55; 56; 57; 58; 59; 60; 61; 62; 63; 64; 65; 66; 67; 68; 69; 70; 71; 72; 73; 74; 75; 76; 77; 78; 79; 80; 81; 82; 83; 84; 85; 86; 87; 88; 89; 90; 91; 92; 93; 94; 95; 96; 97; 98; 99; 100; 101; 102; 103; 104; 105; 106; 107; 108; 109; 110; 111; 112; 113; 114; 115; 116; 117; 118; 119; 120; 121; 122; 123; 124; 125; 126; 127; 128; 129; 130; 131; 132; 133; 134; 135; 136; 137; 138; 139; 140; 141; 142; 143] (Some [0; 1; 2; 3; 4; 5; 6; 7; 8; 9; 10; 11; 12; 13; 14; 15]) [255; 254; 253; 252; 251; 250; 249; 248; 247; 246; 245; 244; 243; 242; 241; 240; 239; 238; 237; 236; 235; 234; 233; 232; 231; 230; 229; 228; 227; 226; 225; 224; 223; 222; 221; 220; 219; 218; 217; 216; 215; 214; 213; 212; 211; 210; 209; 208; 207; 206; 205; 204; 203; 202; 201; 200; 199; 198; 197; 196; 195; 194; 193; 192; 191; 190; 189; 188; 187; 186; 185; 184; 183; 182; 181; 180; 179; 178; 177; 176; 175; 174; 173; 172; 171; 170; 169; 168; 167; 166; 165; 164; 163; 162; 161; 160; 159; 158; 157; 156; 155; 154; 153; 152; 151; 150; 149; 148; 147; 146; 145; 144; 143; 142; 141; 140; 139; 138; 137; 136; 135; 134; 133; 132; 131; 130; 129; 128] None = Some [166; 101; 77; 219; 215; 60; 195; 176; 93; 215; 119; 16; 90; 168; 73; 188; 228; 147; 114; 234; 175; 252; 85; 104; 210; 84; 119; 27; 171; 133; 83; 28; 148; 247; 128; 231; 255; 170; 228; 48; 213; 216; 175; 140; 112; 238; 187; 225; 118; 15; 59; 66; 183; 55; 168; 156; 179; 99; 73; 13; 103; 3; 20; 189; 138; 164; 30; 230; 60; 46; 31; 69; 251; 212; 119; 146; 47; 131; 96; 179; 136; 214; 18; 94; 166; 199; 175; 10; 215; 5; 109; 1; 121; 110; 144; 200; 51; 19; 244; 21; 10; 87; 22; 179; 14; 213; 245; 105; 40; 138; 233; 116; 206; 43; 67; 71; 146; 111; 206; 87; 222; 68; 81; 33; 119; 221; 124; 222].
Proof. vm_compute. reflexivity. Qed.

(** BTEA with any number n of words per block, at least two: the two objects undo each other. *)
Theorem C57_btea_partial : forall key n, (2 <= n)%nat ->
  undoes (n * 4) (btea_enc key n) (btea_dec key n) /\ undoes (n * 4) (btea_dec key n) (btea_enc key n).
Proof. exact btea_undoes. Qed.
Example C57_btea_example :
  btea_enc (repeat 7 16) 3 [1; 2; 3; 4; 5; 6; 7; 8; 9; 10; 11; 12] None <> Some [1; 2; 3; 4; 5; 6; 7; 8; 9; 10; 11; 12] /\
  match btea_enc (repeat 7 16) 3 [1; 2; 3; 4; 5; 6; 7; 8; 9; 10; 11; 12] None with
  | Some c => btea_dec (repeat 7 16) 3 c None = Some [1; 2; 3; 4; 5; 6; 7; 8; 9; 10; 11; 12]
  | None => False
  end.
Proof. vm_compute. split; [discriminate|reflexivity]. Qed.

(** What is missing for BTEA: the mask of ProcessAndXorBlock is ignored by both objects, so a caller that
    asks for "decrypt and exclusive-or" (CBC decryption does, modes.cpp:264-265) gets the bare block. *)
Theorem C57_btea_mask_refuted : exists key n b m c, (2 <= n)%nat /\ bytes b /\ length b = (n * 4)%nat /\
  bytes m /\ length m = (n * 4)%nat /\ btea_dec key n b None = Some c /\ btea_dec key n b (Some m) <> Some (xorl c m) /\
  btea_enc key n b None <> None /\ btea_enc key n b (Some m) = btea_enc key n b None.
Proof.
  exists (repeat 7 16), 2%nat, [1; 2; 3; 4; 5; 6; 7; 8], (repeat 1 8). eexists.
  split; [lia|]. split; [repeat constructor; unfold byte; lia|]. split; [reflexivity|].
  split; [repeat constructor; unfold byte; lia|]. split; [reflexivity|]. split; [vm_compute; reflexivity|].
  split; [vm_compute; discriminate|]. split; [vm_compute; discriminate|]. reflexivity.
Qed.
(** ... and a block of one word (BlockSize 4, which the key setup accepts) is not recovered. *)
Theorem C57_btea_one_word_refuted : exists key b c, bytes key /\ length key = 16%nat /\ bytes b /\ length b = 4%nat /\
  btea_enc key 1 b None = Some c /\ btea_dec key 1 c None <> Some b.
Proof.
  exists (repeat 0 16), [0; 0; 0; 1]. eexists.
  split; [repeat constructor; unfold byte; lia|]. split; [reflexivity|].
  split; [repeat constructor; unfold byte; lia|]. split; [reflexivity|]. split; [vm_compute; reflexivity|].
  vm_compute. discriminate.
Qed.

Print Assumptions C57_tea.
Print Assumptions C57_xtea.
Print Assumptions C57_rc5.
Print Assumptions C57_rc6.
Print Assumptions C57_speck64.
Print Assumptions C57_speck128.
Print Assumptions C57_simon64.
Print Assumptions C57_simon128.
Print Assumptions C57_threefish256.
Print Assumptions C57_threefish512.
Print Assumptions C57_threefish1024.
Print Assumptions C57_btea_partial.
Print Assumptions C57_btea_mask_refuted.
Print Assumptions C57_btea_one_word_refuted.
