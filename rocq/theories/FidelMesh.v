(** * FidelMesh: the other test meshes of the repository

    Extracted mechanically from tests/DualGraphExamples.h by tools/mkmesh.py.
    The last line of each mesh are default arguments, which the tests replace. *)

From Coq Require Import Floats Uint63.
From Verif Require Import Main Double Fidelity.

Set Warnings "-inexact-float".
#[local] Open Scope Z_scope.
#[local] Open Scope nat_scope.
#[local] Existing Instance float_arith.

(** tests/DualGraphExamples.h, class [DualGEx]. *)
Definition mixed : input := Input _
  [0; 2; 5; 9; 13; 17; 21; 24; 28; 32; 35; 38; 41; 44; 46; 49; 52; 54; 56; 59; 62; 64]
  [1; 9; 0; 2; 6; 1; 3; 5; 8; 2; 4; 7; 11; 3; 5; 12; 14; 2; 4; 6; 15; 1; 5; 16; 3; 8; 10; 19; 2; 7; 9; 18; 0; 8; 17; 7; 11; 20; 3; 10; 12; 4; 11; 13; 12; 14; 4; 13; 15; 5; 14; 16; 6; 15; 9; 18; 8; 17; 19; 7; 18; 20; 10; 19]
  [0x1.6a09e65dc27dfp+0; 1.0; 1.0; 1.0; 1.0; 1.0; 1.0; 1.0; 1.0; 1.0; 1.0; 1.0; 1.0; 1.0; 1.0; 1.0; 1.0; 1.0; 1.0; 1.0; 1.0; 1.0; 1.0; 1.0; 1.0; 1.0; 1.0; 1.0; 1.0; 1.0; 1.0; 1.0]%float
  [0x1.0000000000000p-1; 0x1.0000000000000p-1; 1.0; 1.0; 1.0; 1.0; 1.0; 1.0; 1.0; 1.0; 1.0; 1.0; 1.0; 1.0; 1.0; 1.0; 1.0; 1.0; 1.0; 1.0; 1.0]%float
  [[0x1.5555555555555p-2; 0x1.5555555555555p-2]; [0x1.5555555555555p-1; 0x1.5555555555555p-1]; [0x1.8000000000000p+0; 0x1.0000000000000p-1]; [0x1.4000000000000p+1; 0x1.0000000000000p-1]; [0x1.4000000000000p+1; 0x1.8000000000000p+0]; [0x1.8000000000000p+0; 0x1.8000000000000p+0]; [0x1.0000000000000p-1; 0x1.8000000000000p+0]; [0x1.4000000000000p+1; (-0x1.0000000000000p-1)]; [0x1.8000000000000p+0; (-0x1.0000000000000p-1)]; [0x1.0000000000000p-1; (-0x1.0000000000000p-1)]; [0x1.c000000000000p+1; (-0x1.0000000000000p-1)]; [0x1.c000000000000p+1; 0x1.0000000000000p-1]; [0x1.c000000000000p+1; 0x1.8000000000000p+0]; [0x1.c000000000000p+1; 0x1.4000000000000p+1]; [0x1.4000000000000p+1; 0x1.4000000000000p+1]; [0x1.8000000000000p+0; 0x1.4000000000000p+1]; [0x1.0000000000000p-1; 0x1.4000000000000p+1]; [0x1.0000000000000p-1; (-0x1.8000000000000p+0)]; [0x1.8000000000000p+0; (-0x1.8000000000000p+0)]; [0x1.4000000000000p+1; (-0x1.8000000000000p+0)]; [0x1.c000000000000p+1; (-0x1.8000000000000p+0)]]%float
  [21.0; 20.0; 19.0; 18.0; 17.0; 16.0; 15.0; 14.0; 13.0; 12.0; 11.0; 10.0; 9.0; 8.0; 7.0; 6.0; 5.0; 4.0; 3.0; 2.0; 1.0]%float
  (seq 0 21)
  [1; 0; 0; 0; 0; 0; 1; 0; 0; 1; 1; 1; 1; 2; 1; 1; 2; 2; 1; 1; 2]%Z
  true false true 0%float 0 true 2 4 4 4 0 1 None 0 true 1 0.

(** tests/DualGraphExamples.h, class [DualGEx_aniso]. *)
Definition aniso : input := Input _
  [0; 3; 7; 11; 15; 18; 22; 27; 32; 37; 41; 45; 50; 55; 60; 64; 68; 73; 78; 83; 87; 90; 94; 98; 102; 105; 109; 114; 119; 124; 128; 133; 139; 145; 151; 156; 161; 167; 173; 179; 184; 189; 195; 201; 207; 212; 216; 221; 226; 231; 235; 239; 244; 249; 254; 258; 263; 269; 275; 281; 286; 291; 297; 303; 309; 314; 319; 325; 331; 337; 342; 346; 351; 356; 361; 365; 369; 374; 379; 384; 388; 393; 399; 405; 411; 416; 421; 427; 433; 439; 444; 449; 455; 461; 467; 472; 476; 481; 486; 491; 495; 498; 502; 506; 510; 513; 517; 522; 527; 532; 536; 540; 545; 550; 555; 559; 563; 568; 573; 578; 582; 585; 589; 593; 597; 600]
  [1; 5; 25; 0; 2; 6; 26; 1; 3; 7; 27; 2; 4; 8; 28; 3; 9; 29; 0; 6; 10; 30; 1; 5; 7; 11; 31; 2; 6; 8; 12; 32; 3; 7; 9; 13; 33; 4; 8; 14; 34; 5; 11; 15; 35; 6; 10; 12; 16; 36; 7; 11; 13; 17; 37; 8; 12; 14; 18; 38; 9; 13; 19; 39; 10; 16; 20; 40; 11; 15; 17; 21; 41; 12; 16; 18; 22; 42; 13; 17; 19; 23; 43; 14; 18; 24; 44; 15; 21; 45; 16; 20; 22; 46; 17; 21; 23; 47; 18; 22; 24; 48; 19; 23; 49; 0; 26; 30; 50; 1; 25; 27; 31; 51; 2; 26; 28; 32; 52; 3; 27; 29; 33; 53; 4; 28; 34; 54; 5; 25; 31; 35; 55; 6; 26; 30; 32; 36; 56; 7; 27; 31; 33; 37; 57; 8; 28; 32; 34; 38; 58; 9; 29; 33; 39; 59; 10; 30; 36; 40; 60; 11; 31; 35; 37; 41; 61; 12; 32; 36; 38; 42; 62; 13; 33; 37; 39; 43; 63; 14; 34; 38; 44; 64; 15; 35; 41; 45; 65; 16; 36; 40; 42; 46; 66; 17; 37; 41; 43; 47; 67; 18; 38; 42; 44; 48; 68; 19; 39; 43; 49; 69; 20; 40; 46; 70; 21; 41; 45; 47; 71; 22; 42; 46; 48; 72; 23; 43; 47; 49; 73; 24; 44; 48; 74; 25; 51; 55; 75; 26; 50; 52; 56; 76; 27; 51; 53; 57; 77; 28; 52; 54; 58; 78; 29; 53; 59; 79; 30; 50; 56; 60; 80; 31; 51; 55; 57; 61; 81; 32; 52; 56; 58; 62; 82; 33; 53; 57; 59; 63; 83; 34; 54; 58; 64; 84; 35; 55; 61; 65; 85; 36; 56; 60; 62; 66; 86; 37; 57; 61; 63; 67; 87; 38; 58; 62; 64; 68; 88; 39; 59; 63; 69; 89; 40; 60; 66; 70; 90; 41; 61; 65; 67; 71; 91; 42; 62; 66; 68; 72; 92; 43; 63; 67; 69; 73; 93; 44; 64; 68; 74; 94; 45; 65; 71; 95; 46; 66; 70; 72; 96; 47; 67; 71; 73; 97; 48; 68; 72; 74; 98; 49; 69; 73; 99; 50; 76; 80; 100; 51; 75; 77; 81; 101; 52; 76; 78; 82; 102; 53; 77; 79; 83; 103; 54; 78; 84; 104; 55; 75; 81; 85; 105; 56; 76; 80; 82; 86; 106; 57; 77; 81; 83; 87; 107; 58; 78; 82; 84; 88; 108; 59; 79; 83; 89; 109; 60; 80; 86; 90; 110; 61; 81; 85; 87; 91; 111; 62; 82; 86; 88; 92; 112; 63; 83; 87; 89; 93; 113; 64; 84; 88; 94; 114; 65; 85; 91; 95; 115; 66; 86; 90; 92; 96; 116; 67; 87; 91; 93; 97; 117; 68; 88; 92; 94; 98; 118; 69; 89; 93; 99; 119; 70; 90; 96; 120; 71; 91; 95; 97; 121; 72; 92; 96; 98; 122; 73; 93; 97; 99; 123; 74; 94; 98; 124; 75; 101; 105; 76; 100; 102; 106; 77; 101; 103; 107; 78; 102; 104; 108; 79; 103; 109; 80; 100; 106; 110; 81; 101; 105; 107; 111; 82; 102; 106; 108; 112; 83; 103; 107; 109; 113; 84; 104; 108; 114; 85; 105; 111; 115; 86; 106; 110; 112; 116; 87; 107; 111; 113; 117; 88; 108; 112; 114; 118; 89; 109; 113; 119; 90; 110; 116; 120; 91; 111; 115; 117; 121; 92; 112; 116; 118; 122; 93; 113; 117; 119; 123; 94; 114; 118; 124; 95; 115; 121; 96; 116; 120; 122; 97; 117; 121; 123; 98; 118; 122; 124; 99; 119; 123]
  [0x1.da38e604ac438p-5; 0x1.da38e604ac438p-5; 1.0; 0x1.da38e604ac438p-5; 0x1.da38e604ac438p-5; 0x1.da38e604ac438p-5; 1.0; 0x1.da38e604ac438p-5; 0x1.da38e604ac438p-5; 0x1.da38e604ac438p-5; 1.0; 0x1.da38e604ac438p-5; 0x1.da38e604ac438p-5; 0x1.da38e604ac438p-5; 1.0; 0x1.da38e604ac438p-5; 0x1.da38e604ac438p-5; 1.0; 0x1.da38e604ac438p-5; 0x1.da38e604ac438p-5; 0x1.da38e604ac438p-5; 1.0; 0x1.da38e604ac438p-5; 0x1.da38e604ac438p-5; 0x1.da38e604ac438p-5; 0x1.da38e604ac438p-5; 1.0; 0x1.da38e604ac438p-5; 0x1.da38e604ac438p-5; 0x1.da38e604ac438p-5; 0x1.da38e604ac438p-5; 1.0; 0x1.da38e604ac438p-5; 0x1.da38e604ac438p-5; 0x1.da38e604ac438p-5; 0x1.da38e604ac438p-5; 1.0; 0x1.da38e604ac438p-5; 0x1.da38e604ac438p-5; 0x1.da38e604ac438p-5; 1.0; 0x1.da38e604ac438p-5; 0x1.da38e604ac438p-5; 0x1.da38e604ac438p-5; 1.0; 0x1.da38e604ac438p-5; 0x1.da38e604ac438p-5; 0x1.da38e604ac438p-5; 0x1.da38e604ac438p-5; 1.0; 0x1.da38e604ac438p-5; 0x1.da38e604ac438p-5; 0x1.da38e604ac438p-5; 0x1.da38e604ac438p-5; 1.0; 0x1.da38e604ac438p-5; 0x1.da38e604ac438p-5; 0x1.da38e604ac438p-5; 0x1.da38e604ac438p-5; 1.0; 0x1.da38e604ac438p-5; 0x1.da38e604ac438p-5; 0x1.da38e604ac438p-5; 1.0; 0x1.da38e604ac438p-5; 0x1.da38e604ac438p-5; 0x1.da38e604ac438p-5; 1.0; 0x1.da38e604ac438p-5; 0x1.da38e604ac438p-5; 0x1.da38e604ac438p-5; 0x1.da38e604ac438p-5; 1.0; 0x1.da38e604ac438p-5; 0x1.da38e604ac438p-5; 0x1.da38e604ac438p-5; 0x1.da38e604ac438p-5; 1.0; 0x1.da38e604ac438p-5; 0x1.da38e604ac438p-5; 0x1.da38e604ac438p-5; 0x1.da38e604ac438p-5; 1.0; 0x1.da38e604ac438p-5; 0x1.da38e604ac438p-5; 0x1.da38e604ac438p-5; 1.0; 0x1.da38e604ac438p-5; 0x1.da38e604ac438p-5; 1.0; 0x1.da38e604ac438p-5; 0x1.da38e604ac438p-5; 0x1.da38e604ac438p-5; 1.0; 0x1.da38e604ac438p-5; 0x1.da38e604ac438p-5; 0x1.da38e604ac438p-5; 1.0; 0x1.da38e604ac438p-5; 0x1.da38e604ac438p-5; 0x1.da38e604ac438p-5; 1.0; 0x1.da38e604ac438p-5; 0x1.da38e604ac438p-5; 1.0; 1.0; 0x1.424476ced96c2p-3; 0x1.424476ced96c2p-3; 1.0; 1.0; 0x1.424476ced96c2p-3; 0x1.424476ced96c2p-3; 0x1.424476ced96c2p-3; 1.0; 1.0; 0x1.424476ced96c2p-3; 0x1.424476ced96c2p-3; 0x1.424476ced96c2p-3; 1.0; 1.0; 0x1.424476ced96c2p-3; 0x1.424476ced96c2p-3; 0x1.424476ced96c2p-3; 1.0; 1.0; 0x1.424476ced96c2p-3; 0x1.424476ced96c2p-3; 1.0; 1.0; 0x1.424476ced96c2p-3; 0x1.424476ced96c2p-3; 0x1.424476ced96c2p-3; 1.0; 1.0; 0x1.424476ced96c2p-3; 0x1.424476ced96c2p-3; 0x1.424476ced96c2p-3; 0x1.424476ced96c2p-3; 1.0; 1.0; 0x1.424476ced96c2p-3; 0x1.424476ced96c2p-3; 0x1.424476ced96c2p-3; 0x1.424476ced96c2p-3; 1.0; 1.0; 0x1.424476ced96c2p-3; 0x1.424476ced96c2p-3; 0x1.424476ced96c2p-3; 0x1.424476ced96c2p-3; 1.0; 1.0; 0x1.424476ced96c2p-3; 0x1.424476ced96c2p-3; 0x1.424476ced96c2p-3; 1.0; 1.0; 0x1.424476ced96c2p-3; 0x1.424476ced96c2p-3; 0x1.424476ced96c2p-3; 1.0; 1.0; 0x1.424476ced96c2p-3; 0x1.424476ced96c2p-3; 0x1.424476ced96c2p-3; 0x1.424476ced96c2p-3; 1.0; 1.0; 0x1.424476ced96c2p-3; 0x1.424476ced96c2p-3; 0x1.424476ced96c2p-3; 0x1.424476ced96c2p-3; 1.0; 1.0; 0x1.424476ced96c2p-3; 0x1.424476ced96c2p-3; 0x1.424476ced96c2p-3; 0x1.424476ced96c2p-3; 1.0; 1.0; 0x1.424476ced96c2p-3; 0x1.424476ced96c2p-3; 0x1.424476ced96c2p-3; 1.0; 1.0; 0x1.424476ced96c2p-3; 0x1.424476ced96c2p-3; 0x1.424476ced96c2p-3; 1.0; 1.0; 0x1.424476ced96c2p-3; 0x1.424476ced96c2p-3; 0x1.424476ced96c2p-3; 0x1.424476ced96c2p-3; 1.0; 1.0; 0x1.424476ced96c2p-3; 0x1.424476ced96c2p-3; 0x1.424476ced96c2p-3; 0x1.424476ced96c2p-3; 1.0; 1.0; 0x1.424476ced96c2p-3; 0x1.424476ced96c2p-3; 0x1.424476ced96c2p-3; 0x1.424476ced96c2p-3; 1.0; 1.0; 0x1.424476ced96c2p-3; 0x1.424476ced96c2p-3; 0x1.424476ced96c2p-3; 1.0; 1.0; 0x1.424476ced96c2p-3; 0x1.424476ced96c2p-3; 1.0; 1.0; 0x1.424476ced96c2p-3; 0x1.424476ced96c2p-3; 0x1.424476ced96c2p-3; 1.0; 1.0; 0x1.424476ced96c2p-3; 0x1.424476ced96c2p-3; 0x1.424476ced96c2p-3; 1.0; 1.0; 0x1.424476ced96c2p-3; 0x1.424476ced96c2p-3; 0x1.424476ced96c2p-3; 1.0; 1.0; 0x1.424476ced96c2p-3; 0x1.424476ced96c2p-3; 1.0; 1.0; 0x1.b601c195d9610p-2; 0x1.b601c195d9610p-2; 1.0; 1.0; 0x1.b601c195d9610p-2; 0x1.b601c195d9610p-2; 0x1.b601c195d9610p-2; 1.0; 1.0; 0x1.b601c195d9610p-2; 0x1.b601c195d9610p-2; 0x1.b601c195d9610p-2; 1.0; 1.0; 0x1.b601c195d9610p-2; 0x1.b601c195d9610p-2; 0x1.b601c195d9610p-2; 1.0; 1.0; 0x1.b601c195d9610p-2; 0x1.b601c195d9610p-2; 1.0; 1.0; 0x1.b601c195d9610p-2; 0x1.b601c195d9610p-2; 0x1.b601c195d9610p-2; 1.0; 1.0; 0x1.b601c195d9610p-2; 0x1.b601c195d9610p-2; 0x1.b601c195d9610p-2; 0x1.b601c195d9610p-2; 1.0; 1.0; 0x1.b601c195d9610p-2; 0x1.b601c195d9610p-2; 0x1.b601c195d9610p-2; 0x1.b601c195d9610p-2; 1.0; 1.0; 0x1.b601c195d9610p-2; 0x1.b601c195d9610p-2; 0x1.b601c195d9610p-2; 0x1.b601c195d9610p-2; 1.0; 1.0; 0x1.b601c195d9610p-2; 0x1.b601c195d9610p-2; 0x1.b601c195d9610p-2; 1.0; 1.0; 0x1.b601c195d9610p-2; 0x1.b601c195d9610p-2; 0x1.b601c195d9610p-2; 1.0; 1.0; 0x1.b601c195d9610p-2; 0x1.b601c195d9610p-2; 0x1.b601c195d9610p-2; 0x1.b601c195d9610p-2; 1.0; 1.0; 0x1.b601c195d9610p-2; 0x1.b601c195d9610p-2; 0x1.b601c195d9610p-2; 0x1.b601c195d9610p-2; 1.0; 1.0; 0x1.b601c195d9610p-2; 0x1.b601c195d9610p-2; 0x1.b601c195d9610p-2; 0x1.b601c195d9610p-2; 1.0; 1.0; 0x1.b601c195d9610p-2; 0x1.b601c195d9610p-2; 0x1.b601c195d9610p-2; 1.0; 1.0; 0x1.b601c195d9610p-2; 0x1.b601c195d9610p-2; 0x1.b601c195d9610p-2; 1.0; 1.0; 0x1.b601c195d9610p-2; 0x1.b601c195d9610p-2; 0x1.b601c195d9610p-2; 0x1.b601c195d9610p-2; 1.0; 1.0; 0x1.b601c195d9610p-2; 0x1.b601c195d9610p-2; 0x1.b601c195d9610p-2; 0x1.b601c195d9610p-2; 1.0; 1.0; 0x1.b601c195d9610p-2; 0x1.b601c195d9610p-2; 0x1.b601c195d9610p-2; 0x1.b601c195d9610p-2; 1.0; 1.0; 0x1.b601c195d9610p-2; 0x1.b601c195d9610p-2; 0x1.b601c195d9610p-2; 1.0; 1.0; 0x1.b601c195d9610p-2; 0x1.b601c195d9610p-2; 1.0; 1.0; 0x1.b601c195d9610p-2; 0x1.b601c195d9610p-2; 0x1.b601c195d9610p-2; 1.0; 1.0; 0x1.b601c195d9610p-2; 0x1.b601c195d9610p-2; 0x1.b601c195d9610p-2; 1.0; 1.0; 0x1.b601c195d9610p-2; 0x1.b601c195d9610p-2; 0x1.b601c195d9610p-2; 1.0; 1.0; 0x1.b601c195d9610p-2; 0x1.b601c195d9610p-2; 1.0; 1.0; 0x1.29a811d6079e6p+0; 0x1.29a811d6079e6p+0; 1.0; 1.0; 0x1.29a811d6079e6p+0; 0x1.29a811d6079e6p+0; 0x1.29a811d6079e6p+0; 1.0; 1.0; 0x1.29a811d6079e6p+0; 0x1.29a811d6079e6p+0; 0x1.29a811d6079e6p+0; 1.0; 1.0; 0x1.29a811d6079e6p+0; 0x1.29a811d6079e6p+0; 0x1.29a811d6079e6p+0; 1.0; 1.0; 0x1.29a811d6079e6p+0; 0x1.29a811d6079e6p+0; 1.0; 1.0; 0x1.29a811d6079e6p+0; 0x1.29a811d6079e6p+0; 0x1.29a811d6079e6p+0; 1.0; 1.0; 0x1.29a811d6079e6p+0; 0x1.29a811d6079e6p+0; 0x1.29a811d6079e6p+0; 0x1.29a811d6079e6p+0; 1.0; 1.0; 0x1.29a811d6079e6p+0; 0x1.29a811d6079e6p+0; 0x1.29a811d6079e6p+0; 0x1.29a811d6079e6p+0; 1.0; 1.0; 0x1.29a811d6079e6p+0; 0x1.29a811d6079e6p+0; 0x1.29a811d6079e6p+0; 0x1.29a811d6079e6p+0; 1.0; 1.0; 0x1.29a811d6079e6p+0; 0x1.29a811d6079e6p+0; 0x1.29a811d6079e6p+0; 1.0; 1.0; 0x1.29a811d6079e6p+0; 0x1.29a811d6079e6p+0; 0x1.29a811d6079e6p+0; 1.0; 1.0; 0x1.29a811d6079e6p+0; 0x1.29a811d6079e6p+0; 0x1.29a811d6079e6p+0; 0x1.29a811d6079e6p+0; 1.0; 1.0; 0x1.29a811d6079e6p+0; 0x1.29a811d6079e6p+0; 0x1.29a811d6079e6p+0; 0x1.29a811d6079e6p+0; 1.0; 1.0; 0x1.29a811d6079e6p+0; 0x1.29a811d6079e6p+0; 0x1.29a811d6079e6p+0; 0x1.29a811d6079e6p+0; 1.0; 1.0; 0x1.29a811d6079e6p+0; 0x1.29a811d6079e6p+0; 0x1.29a811d6079e6p+0; 1.0; 1.0; 0x1.29a811d6079e6p+0; 0x1.29a811d6079e6p+0; 0x1.29a811d6079e6p+0; 1.0; 1.0; 0x1.29a811d6079e6p+0; 0x1.29a811d6079e6p+0; 0x1.29a811d6079e6p+0; 0x1.29a811d6079e6p+0; 1.0; 1.0; 0x1.29a811d6079e6p+0; 0x1.29a811d6079e6p+0; 0x1.29a811d6079e6p+0; 0x1.29a811d6079e6p+0; 1.0; 1.0; 0x1.29a811d6079e6p+0; 0x1.29a811d6079e6p+0; 0x1.29a811d6079e6p+0; 0x1.29a811d6079e6p+0; 1.0; 1.0; 0x1.29a811d6079e6p+0; 0x1.29a811d6079e6p+0; 0x1.29a811d6079e6p+0; 1.0; 1.0; 0x1.29a811d6079e6p+0; 0x1.29a811d6079e6p+0; 1.0; 1.0; 0x1.29a811d6079e6p+0; 0x1.29a811d6079e6p+0; 0x1.29a811d6079e6p+0; 1.0; 1.0; 0x1.29a811d6079e6p+0; 0x1.29a811d6079e6p+0; 0x1.29a811d6079e6p+0; 1.0; 1.0; 0x1.29a811d6079e6p+0; 0x1.29a811d6079e6p+0; 0x1.29a811d6079e6p+0; 1.0; 1.0; 0x1.29a811d6079e6p+0; 0x1.29a811d6079e6p+0; 1.0; 1.0; 0x1.948ea1e23ea7ep+1; 0x1.948ea1e23ea7ep+1; 1.0; 0x1.948ea1e23ea7ep+1; 0x1.948ea1e23ea7ep+1; 0x1.948ea1e23ea7ep+1; 1.0; 0x1.948ea1e23ea7ep+1; 0x1.948ea1e23ea7ep+1; 0x1.948ea1e23ea7ep+1; 1.0; 0x1.948ea1e23ea7ep+1; 0x1.948ea1e23ea7ep+1; 0x1.948ea1e23ea7ep+1; 1.0; 0x1.948ea1e23ea7ep+1; 0x1.948ea1e23ea7ep+1; 1.0; 0x1.948ea1e23ea7ep+1; 0x1.948ea1e23ea7ep+1; 0x1.948ea1e23ea7ep+1; 1.0; 0x1.948ea1e23ea7ep+1; 0x1.948ea1e23ea7ep+1; 0x1.948ea1e23ea7ep+1; 0x1.948ea1e23ea7ep+1; 1.0; 0x1.948ea1e23ea7ep+1; 0x1.948ea1e23ea7ep+1; 0x1.948ea1e23ea7ep+1; 0x1.948ea1e23ea7ep+1; 1.0; 0x1.948ea1e23ea7ep+1; 0x1.948ea1e23ea7ep+1; 0x1.948ea1e23ea7ep+1; 0x1.948ea1e23ea7ep+1; 1.0; 0x1.948ea1e23ea7ep+1; 0x1.948ea1e23ea7ep+1; 0x1.948ea1e23ea7ep+1; 1.0; 0x1.948ea1e23ea7ep+1; 0x1.948ea1e23ea7ep+1; 0x1.948ea1e23ea7ep+1; 1.0; 0x1.948ea1e23ea7ep+1; 0x1.948ea1e23ea7ep+1; 0x1.948ea1e23ea7ep+1; 0x1.948ea1e23ea7ep+1; 1.0; 0x1.948ea1e23ea7ep+1; 0x1.948ea1e23ea7ep+1; 0x1.948ea1e23ea7ep+1; 0x1.948ea1e23ea7ep+1; 1.0; 0x1.948ea1e23ea7ep+1; 0x1.948ea1e23ea7ep+1; 0x1.948ea1e23ea7ep+1; 0x1.948ea1e23ea7ep+1; 1.0; 0x1.948ea1e23ea7ep+1; 0x1.948ea1e23ea7ep+1; 0x1.948ea1e23ea7ep+1; 1.0; 0x1.948ea1e23ea7ep+1; 0x1.948ea1e23ea7ep+1; 0x1.948ea1e23ea7ep+1; 1.0; 0x1.948ea1e23ea7ep+1; 0x1.948ea1e23ea7ep+1; 0x1.948ea1e23ea7ep+1; 0x1.948ea1e23ea7ep+1; 1.0; 0x1.948ea1e23ea7ep+1; 0x1.948ea1e23ea7ep+1; 0x1.948ea1e23ea7ep+1; 0x1.948ea1e23ea7ep+1; 1.0; 0x1.948ea1e23ea7ep+1; 0x1.948ea1e23ea7ep+1; 0x1.948ea1e23ea7ep+1; 0x1.948ea1e23ea7ep+1; 1.0; 0x1.948ea1e23ea7ep+1; 0x1.948ea1e23ea7ep+1; 0x1.948ea1e23ea7ep+1; 1.0; 0x1.948ea1e23ea7ep+1; 0x1.948ea1e23ea7ep+1; 1.0; 0x1.948ea1e23ea7ep+1; 0x1.948ea1e23ea7ep+1; 0x1.948ea1e23ea7ep+1; 1.0; 0x1.948ea1e23ea7ep+1; 0x1.948ea1e23ea7ep+1; 0x1.948ea1e23ea7ep+1; 1.0; 0x1.948ea1e23ea7ep+1; 0x1.948ea1e23ea7ep+1; 0x1.948ea1e23ea7ep+1; 1.0; 0x1.948ea1e23ea7ep+1; 0x1.948ea1e23ea7ep+1]%float
  [0x1.da38e604ac438p-5; 0x1.da38e604ac438p-5; 0x1.da38e604ac438p-5; 0x1.da38e604ac438p-5; 0x1.da38e604ac438p-5; 0x1.da38e604ac438p-5; 0x1.da38e604ac438p-5; 0x1.da38e604ac438p-5; 0x1.da38e604ac438p-5; 0x1.da38e604ac438p-5; 0x1.da38e604ac438p-5; 0x1.da38e604ac438p-5; 0x1.da38e604ac438p-5; 0x1.da38e604ac438p-5; 0x1.da38e604ac438p-5; 0x1.da38e604ac438p-5; 0x1.da38e604ac438p-5; 0x1.da38e604ac438p-5; 0x1.da38e604ac438p-5; 0x1.da38e604ac438p-5; 0x1.da38e604ac438p-5; 0x1.da38e604ac438p-5; 0x1.da38e604ac438p-5; 0x1.da38e604ac438p-5; 0x1.da38e604ac438p-5; 0x1.424476ced96c2p-3; 0x1.424476ced96c2p-3; 0x1.424476ced96c2p-3; 0x1.424476ced96c2p-3; 0x1.424476ced96c2p-3; 0x1.424476ced96c2p-3; 0x1.424476ced96c2p-3; 0x1.424476ced96c2p-3; 0x1.424476ced96c2p-3; 0x1.424476ced96c2p-3; 0x1.424476ced96c2p-3; 0x1.424476ced96c2p-3; 0x1.424476ced96c2p-3; 0x1.424476ced96c2p-3; 0x1.424476ced96c2p-3; 0x1.424476ced96c2p-3; 0x1.424476ced96c2p-3; 0x1.424476ced96c2p-3; 0x1.424476ced96c2p-3; 0x1.424476ced96c2p-3; 0x1.424476ced96c2p-3; 0x1.424476ced96c2p-3; 0x1.424476ced96c2p-3; 0x1.424476ced96c2p-3; 0x1.424476ced96c2p-3; 0x1.b601c195d9610p-2; 0x1.b601c195d9610p-2; 0x1.b601c195d9610p-2; 0x1.b601c195d9610p-2; 0x1.b601c195d9610p-2; 0x1.b601c195d9610p-2; 0x1.b601c195d9610p-2; 0x1.b601c195d9610p-2; 0x1.b601c195d9610p-2; 0x1.b601c195d9610p-2; 0x1.b601c195d9610p-2; 0x1.b601c195d9610p-2; 0x1.b601c195d9610p-2; 0x1.b601c195d9610p-2; 0x1.b601c195d9610p-2; 0x1.b601c195d9610p-2; 0x1.b601c195d9610p-2; 0x1.b601c195d9610p-2; 0x1.b601c195d9610p-2; 0x1.b601c195d9610p-2; 0x1.b601c195d9610p-2; 0x1.b601c195d9610p-2; 0x1.b601c195d9610p-2; 0x1.b601c195d9610p-2; 0x1.b601c195d9610p-2; 0x1.29a811d6079e6p+0; 0x1.29a811d6079e6p+0; 0x1.29a811d6079e6p+0; 0x1.29a811d6079e6p+0; 0x1.29a811d6079e6p+0; 0x1.29a811d6079e6p+0; 0x1.29a811d6079e6p+0; 0x1.29a811d6079e6p+0; 0x1.29a811d6079e6p+0; 0x1.29a811d6079e6p+0; 0x1.29a811d6079e6p+0; 0x1.29a811d6079e6p+0; 0x1.29a811d6079e6p+0; 0x1.29a811d6079e6p+0; 0x1.29a811d6079e6p+0; 0x1.29a811d6079e6p+0; 0x1.29a811d6079e6p+0; 0x1.29a811d6079e6p+0; 0x1.29a811d6079e6p+0; 0x1.29a811d6079e6p+0; 0x1.29a811d6079e6p+0; 0x1.29a811d6079e6p+0; 0x1.29a811d6079e6p+0; 0x1.29a811d6079e6p+0; 0x1.29a811d6079e6p+0; 0x1.948ea1e23ea7ep+1; 0x1.948ea1e23ea7ep+1; 0x1.948ea1e23ea7ep+1; 0x1.948ea1e23ea7ep+1; 0x1.948ea1e23ea7ep+1; 0x1.948ea1e23ea7ep+1; 0x1.948ea1e23ea7ep+1; 0x1.948ea1e23ea7ep+1; 0x1.948ea1e23ea7ep+1; 0x1.948ea1e23ea7ep+1; 0x1.948ea1e23ea7ep+1; 0x1.948ea1e23ea7ep+1; 0x1.948ea1e23ea7ep+1; 0x1.948ea1e23ea7ep+1; 0x1.948ea1e23ea7ep+1; 0x1.948ea1e23ea7ep+1; 0x1.948ea1e23ea7ep+1; 0x1.948ea1e23ea7ep+1; 0x1.948ea1e23ea7ep+1; 0x1.948ea1e23ea7ep+1; 0x1.948ea1e23ea7ep+1; 0x1.948ea1e23ea7ep+1; 0x1.948ea1e23ea7ep+1; 0x1.948ea1e23ea7ep+1; 0x1.948ea1e23ea7ep+1]%float
  [[0x1.0000000000000p-1; 0x1.0000000000000p-1; 0x1.008c78e16db23p-4]; [0x1.8000000000000p+0; 0x1.0000000000000p-1; 0x1.008c78e16db23p-4]; [0x1.4000000000000p+1; 0x1.0000000000000p-1; 0x1.008c78e16db23p-4]; [0x1.c000000000000p+1; 0x1.0000000000000p-1; 0x1.008c78e16db23p-4]; [0x1.2000000000000p+2; 0x1.0000000000000p-1; 0x1.008c78e16db23p-4]; [0x1.0000000000000p-1; 0x1.8000000000000p+0; 0x1.008c78e16db23p-4]; [0x1.8000000000000p+0; 0x1.8000000000000p+0; 0x1.008c78e16db23p-4]; [0x1.4000000000000p+1; 0x1.8000000000000p+0; 0x1.008c78e16db23p-4]; [0x1.c000000000000p+1; 0x1.8000000000000p+0; 0x1.008c78e16db23p-4]; [0x1.2000000000000p+2; 0x1.8000000000000p+0; 0x1.008c78e16db23p-4]; [0x1.0000000000000p-1; 0x1.4000000000000p+1; 0x1.008c78e16db23p-4]; [0x1.8000000000000p+0; 0x1.4000000000000p+1; 0x1.008c78e16db23p-4]; [0x1.4000000000000p+1; 0x1.4000000000000p+1; 0x1.008c78e16db23p-4]; [0x1.c000000000000p+1; 0x1.4000000000000p+1; 0x1.008c78e16db23p-4]; [0x1.2000000000000p+2; 0x1.4000000000000p+1; 0x1.008c78e16db23p-4]; [0x1.0000000000000p-1; 0x1.c000000000000p+1; 0x1.008c78e16db23p-4]; [0x1.8000000000000p+0; 0x1.c000000000000p+1; 0x1.008c78e16db23p-4]; [0x1.4000000000000p+1; 0x1.c000000000000p+1; 0x1.008c78e16db23p-4]; [0x1.c000000000000p+1; 0x1.c000000000000p+1; 0x1.008c78e16db23p-4]; [0x1.2000000000000p+2; 0x1.c000000000000p+1; 0x1.008c78e16db23p-4]; [0x1.0000000000000p-1; 0x1.2000000000000p+2; 0x1.008c78e16db23p-4]; [0x1.8000000000000p+0; 0x1.2000000000000p+2; 0x1.008c78e16db23p-4]; [0x1.4000000000000p+1; 0x1.2000000000000p+2; 0x1.008c78e16db23p-4]; [0x1.c000000000000p+1; 0x1.2000000000000p+2; 0x1.008c78e16db23p-4]; [0x1.2000000000000p+2; 0x1.2000000000000p+2; 0x1.008c78e16db23p-4]; [0x1.0000000000000p-1; 0x1.0000000000000p-1; 0x1.5caf9498b9179p-3]; [0x1.8000000000000p+0; 0x1.0000000000000p-1; 0x1.5caf9498b9179p-3]; [0x1.4000000000000p+1; 0x1.0000000000000p-1; 0x1.5caf9498b9179p-3]; [0x1.c000000000000p+1; 0x1.0000000000000p-1; 0x1.5caf9498b9179p-3]; [0x1.2000000000000p+2; 0x1.0000000000000p-1; 0x1.5caf9498b9179p-3]; [0x1.0000000000000p-1; 0x1.8000000000000p+0; 0x1.5caf9498b9179p-3]; [0x1.8000000000000p+0; 0x1.8000000000000p+0; 0x1.5caf9498b9179p-3]; [0x1.4000000000000p+1; 0x1.8000000000000p+0; 0x1.5caf9498b9179p-3]; [0x1.c000000000000p+1; 0x1.8000000000000p+0; 0x1.5caf9498b9179p-3]; [0x1.2000000000000p+2; 0x1.8000000000000p+0; 0x1.5caf9498b9179p-3]; [0x1.0000000000000p-1; 0x1.4000000000000p+1; 0x1.5caf9498b9179p-3]; [0x1.8000000000000p+0; 0x1.4000000000000p+1; 0x1.5caf9498b9179p-3]; [0x1.4000000000000p+1; 0x1.4000000000000p+1; 0x1.5caf9498b9179p-3]; [0x1.c000000000000p+1; 0x1.4000000000000p+1; 0x1.5caf9498b9179p-3]; [0x1.2000000000000p+2; 0x1.4000000000000p+1; 0x1.5caf9498b9179p-3]; [0x1.0000000000000p-1; 0x1.c000000000000p+1; 0x1.5caf9498b9179p-3]; [0x1.8000000000000p+0; 0x1.c000000000000p+1; 0x1.5caf9498b9179p-3]; [0x1.4000000000000p+1; 0x1.c000000000000p+1; 0x1.5caf9498b9179p-3]; [0x1.c000000000000p+1; 0x1.c000000000000p+1; 0x1.5caf9498b9179p-3]; [0x1.2000000000000p+2; 0x1.c000000000000p+1; 0x1.5caf9498b9179p-3]; [0x1.0000000000000p-1; 0x1.2000000000000p+2; 0x1.5caf9498b9179p-3]; [0x1.8000000000000p+0; 0x1.2000000000000p+2; 0x1.5caf9498b9179p-3]; [0x1.4000000000000p+1; 0x1.2000000000000p+2; 0x1.5caf9498b9179p-3]; [0x1.c000000000000p+1; 0x1.2000000000000p+2; 0x1.5caf9498b9179p-3]; [0x1.2000000000000p+2; 0x1.2000000000000p+2; 0x1.5caf9498b9179p-3]; [0x1.0000000000000p-1; 0x1.0000000000000p-1; 0x1.d9e9c8caff976p-2]; [0x1.8000000000000p+0; 0x1.0000000000000p-1; 0x1.d9e9c8caff976p-2]; [0x1.4000000000000p+1; 0x1.0000000000000p-1; 0x1.d9e9c8caff976p-2]; [0x1.c000000000000p+1; 0x1.0000000000000p-1; 0x1.d9e9c8caff976p-2]; [0x1.2000000000000p+2; 0x1.0000000000000p-1; 0x1.d9e9c8caff976p-2]; [0x1.0000000000000p-1; 0x1.8000000000000p+0; 0x1.d9e9c8caff976p-2]; [0x1.8000000000000p+0; 0x1.8000000000000p+0; 0x1.d9e9c8caff976p-2]; [0x1.4000000000000p+1; 0x1.8000000000000p+0; 0x1.d9e9c8caff976p-2]; [0x1.c000000000000p+1; 0x1.8000000000000p+0; 0x1.d9e9c8caff976p-2]; [0x1.2000000000000p+2; 0x1.8000000000000p+0; 0x1.d9e9c8caff976p-2]; [0x1.0000000000000p-1; 0x1.4000000000000p+1; 0x1.d9e9c8caff976p-2]; [0x1.8000000000000p+0; 0x1.4000000000000p+1; 0x1.d9e9c8caff976p-2]; [0x1.4000000000000p+1; 0x1.4000000000000p+1; 0x1.d9e9c8caff976p-2]; [0x1.c000000000000p+1; 0x1.4000000000000p+1; 0x1.d9e9c8caff976p-2]; [0x1.2000000000000p+2; 0x1.4000000000000p+1; 0x1.d9e9c8caff976p-2]; [0x1.0000000000000p-1; 0x1.c000000000000p+1; 0x1.d9e9c8caff976p-2]; [0x1.8000000000000p+0; 0x1.c000000000000p+1; 0x1.d9e9c8caff976p-2]; [0x1.4000000000000p+1; 0x1.c000000000000p+1; 0x1.d9e9c8caff976p-2]; [0x1.c000000000000p+1; 0x1.c000000000000p+1; 0x1.d9e9c8caff976p-2]; [0x1.2000000000000p+2; 0x1.c000000000000p+1; 0x1.d9e9c8caff976p-2]; [0x1.0000000000000p-1; 0x1.2000000000000p+2; 0x1.d9e9c8caff976p-2]; [0x1.8000000000000p+0; 0x1.2000000000000p+2; 0x1.d9e9c8caff976p-2]; [0x1.4000000000000p+1; 0x1.2000000000000p+2; 0x1.d9e9c8caff976p-2]; [0x1.c000000000000p+1; 0x1.2000000000000p+2; 0x1.d9e9c8caff976p-2]; [0x1.2000000000000p+2; 0x1.2000000000000p+2; 0x1.d9e9c8caff976p-2]; [0x1.0000000000000p-1; 0x1.0000000000000p-1; 0x1.420eb3507ee13p+0]; [0x1.8000000000000p+0; 0x1.0000000000000p-1; 0x1.420eb3507ee13p+0]; [0x1.4000000000000p+1; 0x1.0000000000000p-1; 0x1.420eb3507ee13p+0]; [0x1.c000000000000p+1; 0x1.0000000000000p-1; 0x1.420eb3507ee13p+0]; [0x1.2000000000000p+2; 0x1.0000000000000p-1; 0x1.420eb3507ee13p+0]; [0x1.0000000000000p-1; 0x1.8000000000000p+0; 0x1.420eb3507ee13p+0]; [0x1.8000000000000p+0; 0x1.8000000000000p+0; 0x1.420eb3507ee13p+0]; [0x1.4000000000000p+1; 0x1.8000000000000p+0; 0x1.420eb3507ee13p+0]; [0x1.c000000000000p+1; 0x1.8000000000000p+0; 0x1.420eb3507ee13p+0]; [0x1.2000000000000p+2; 0x1.8000000000000p+0; 0x1.420eb3507ee13p+0]; [0x1.0000000000000p-1; 0x1.4000000000000p+1; 0x1.420eb3507ee13p+0]; [0x1.8000000000000p+0; 0x1.4000000000000p+1; 0x1.420eb3507ee13p+0]; [0x1.4000000000000p+1; 0x1.4000000000000p+1; 0x1.420eb3507ee13p+0]; [0x1.c000000000000p+1; 0x1.4000000000000p+1; 0x1.420eb3507ee13p+0]; [0x1.2000000000000p+2; 0x1.4000000000000p+1; 0x1.420eb3507ee13p+0]; [0x1.0000000000000p-1; 0x1.c000000000000p+1; 0x1.420eb3507ee13p+0]; [0x1.8000000000000p+0; 0x1.c000000000000p+1; 0x1.420eb3507ee13p+0]; [0x1.4000000000000p+1; 0x1.c000000000000p+1; 0x1.420eb3507ee13p+0]; [0x1.c000000000000p+1; 0x1.c000000000000p+1; 0x1.420eb3507ee13p+0]; [0x1.2000000000000p+2; 0x1.c000000000000p+1; 0x1.420eb3507ee13p+0]; [0x1.0000000000000p-1; 0x1.2000000000000p+2; 0x1.420eb3507ee13p+0]; [0x1.8000000000000p+0; 0x1.2000000000000p+2; 0x1.420eb3507ee13p+0]; [0x1.4000000000000p+1; 0x1.2000000000000p+2; 0x1.420eb3507ee13p+0]; [0x1.c000000000000p+1; 0x1.2000000000000p+2; 0x1.420eb3507ee13p+0]; [0x1.2000000000000p+2; 0x1.2000000000000p+2; 0x1.420eb3507ee13p+0]; [0x1.0000000000000p-1; 0x1.0000000000000p-1; 0x1.b5b8af0ee0ac1p+1]; [0x1.8000000000000p+0; 0x1.0000000000000p-1; 0x1.b5b8af0ee0ac1p+1]; [0x1.4000000000000p+1; 0x1.0000000000000p-1; 0x1.b5b8af0ee0ac1p+1]; [0x1.c000000000000p+1; 0x1.0000000000000p-1; 0x1.b5b8af0ee0ac1p+1]; [0x1.2000000000000p+2; 0x1.0000000000000p-1; 0x1.b5b8af0ee0ac1p+1]; [0x1.0000000000000p-1; 0x1.8000000000000p+0; 0x1.b5b8af0ee0ac1p+1]; [0x1.8000000000000p+0; 0x1.8000000000000p+0; 0x1.b5b8af0ee0ac1p+1]; [0x1.4000000000000p+1; 0x1.8000000000000p+0; 0x1.b5b8af0ee0ac1p+1]; [0x1.c000000000000p+1; 0x1.8000000000000p+0; 0x1.b5b8af0ee0ac1p+1]; [0x1.2000000000000p+2; 0x1.8000000000000p+0; 0x1.b5b8af0ee0ac1p+1]; [0x1.0000000000000p-1; 0x1.4000000000000p+1; 0x1.b5b8af0ee0ac1p+1]; [0x1.8000000000000p+0; 0x1.4000000000000p+1; 0x1.b5b8af0ee0ac1p+1]; [0x1.4000000000000p+1; 0x1.4000000000000p+1; 0x1.b5b8af0ee0ac1p+1]; [0x1.c000000000000p+1; 0x1.4000000000000p+1; 0x1.b5b8af0ee0ac1p+1]; [0x1.2000000000000p+2; 0x1.4000000000000p+1; 0x1.b5b8af0ee0ac1p+1]; [0x1.0000000000000p-1; 0x1.c000000000000p+1; 0x1.b5b8af0ee0ac1p+1]; [0x1.8000000000000p+0; 0x1.c000000000000p+1; 0x1.b5b8af0ee0ac1p+1]; [0x1.4000000000000p+1; 0x1.c000000000000p+1; 0x1.b5b8af0ee0ac1p+1]; [0x1.c000000000000p+1; 0x1.c000000000000p+1; 0x1.b5b8af0ee0ac1p+1]; [0x1.2000000000000p+2; 0x1.c000000000000p+1; 0x1.b5b8af0ee0ac1p+1]; [0x1.0000000000000p-1; 0x1.2000000000000p+2; 0x1.b5b8af0ee0ac1p+1]; [0x1.8000000000000p+0; 0x1.2000000000000p+2; 0x1.b5b8af0ee0ac1p+1]; [0x1.4000000000000p+1; 0x1.2000000000000p+2; 0x1.b5b8af0ee0ac1p+1]; [0x1.c000000000000p+1; 0x1.2000000000000p+2; 0x1.b5b8af0ee0ac1p+1]; [0x1.2000000000000p+2; 0x1.2000000000000p+2; 0x1.b5b8af0ee0ac1p+1]]%float
  [125.0; 124.0; 123.0; 122.0; 121.0; 120.0; 119.0; 118.0; 117.0; 116.0; 115.0; 114.0; 113.0; 112.0; 111.0; 110.0; 109.0; 108.0; 107.0; 106.0; 105.0; 104.0; 103.0; 102.0; 101.0; 100.0; 99.0; 98.0; 97.0; 96.0; 95.0; 94.0; 93.0; 92.0; 91.0; 90.0; 89.0; 88.0; 87.0; 86.0; 85.0; 84.0; 83.0; 82.0; 81.0; 80.0; 79.0; 78.0; 77.0; 76.0; 75.0; 74.0; 73.0; 72.0; 71.0; 70.0; 69.0; 68.0; 67.0; 66.0; 65.0; 64.0; 63.0; 62.0; 61.0; 60.0; 59.0; 58.0; 57.0; 56.0; 55.0; 54.0; 53.0; 52.0; 51.0; 50.0; 49.0; 48.0; 47.0; 46.0; 45.0; 44.0; 43.0; 42.0; 41.0; 40.0; 39.0; 38.0; 37.0; 36.0; 35.0; 34.0; 33.0; 32.0; 31.0; 30.0; 29.0; 28.0; 27.0; 26.0; 25.0; 24.0; 23.0; 22.0; 21.0; 20.0; 19.0; 18.0; 17.0; 16.0; 15.0; 14.0; 13.0; 12.0; 11.0; 10.0; 9.0; 8.0; 7.0; 6.0; 5.0; 4.0; 3.0; 2.0; 1.0]%float
  (seq 0 125)
  [3; 2; 2; 2; 3; 2; 1; 1; 1; 2; 2; 1; 1; 1; 2; 2; 1; 1; 1; 2; 3; 2; 2; 2; 3; 2; 1; 1; 1; 2; 1; 0; 0; 0; 1; 1; 0; 0; 0; 1; 1; 0; 0; 0; 1; 2; 1; 1; 1; 2; 2; 1; 1; 1; 2; 1; 0; 0; 0; 1; 1; 0; 0; 0; 1; 1; 0; 0; 0; 1; 2; 1; 1; 1; 2; 2; 1; 1; 1; 2; 1; 0; 0; 0; 1; 1; 0; 0; 0; 1; 1; 0; 0; 0; 1; 2; 1; 1; 1; 2; 3; 2; 2; 2; 3; 2; 1; 1; 1; 2; 2; 1; 1; 1; 2; 2; 1; 1; 1; 2; 3; 2; 2; 2; 3]%Z
  true false true 0%float 0 true 3 4 4 4 0 1 None 0 true 1 0.

(** tests/DualGraphExamples.h, class [DualGEx_minimal]. *)
Definition minimal : input := Input _
  [0; 2; 5; 7; 10; 14; 17; 19; 22; 24]
  [1; 3; 0; 2; 4; 1; 5; 0; 4; 6; 1; 3; 5; 7; 2; 4; 8; 3; 7; 4; 6; 8; 5; 7]
  (replicate 24 1.0)%float
  (replicate 9 1.0)%float
  [[0x1.0000000000000p-1; 0x1.0000000000000p-1]; [0x1.8000000000000p+0; 0x1.0000000000000p-1]; [0x1.4000000000000p+1; 0x1.0000000000000p-1]; [0x1.0000000000000p-1; 0x1.8000000000000p+0]; [0x1.8000000000000p+0; 0x1.8000000000000p+0]; [0x1.4000000000000p+1; 0x1.8000000000000p+0]; [0x1.0000000000000p-1; 0x1.4000000000000p+1]; [0x1.8000000000000p+0; 0x1.4000000000000p+1]; [0x1.4000000000000p+1; 0x1.4000000000000p+1]]%float
  [9.0; 8.0; 7.0; 6.0; 5.0; 4.0; 3.0; 2.0; 1.0]%float
  (seq 0 9)
  [2; 1; 2; 1; 0; 1; 2; 1; 2]%Z
  true false true 0%float 0 true 2 4 4 4 0 1 None 0 true 1 0.

(** tests/DualGraphExamples.h, class [DualGEx_quad_3]. *)
Definition quad_3 : input := Input _
  [0; 2; 5; 7; 10; 14; 17; 19; 22; 24]
  [1; 3; 0; 2; 4; 1; 5; 0; 4; 6; 1; 3; 5; 7; 2; 4; 8; 3; 7; 4; 6; 8; 5; 7]
  (replicate 24 1.0)%float
  (replicate 9 1.0)%float
  [[0x1.0000000000000p-1; 0x1.0000000000000p-1]; [0x1.8000000000000p+0; 0x1.0000000000000p-1]; [0x1.4000000000000p+1; 0x1.0000000000000p-1]; [0x1.0000000000000p-1; 0x1.8000000000000p+0]; [0x1.8000000000000p+0; 0x1.8000000000000p+0]; [0x1.4000000000000p+1; 0x1.8000000000000p+0]; [0x1.0000000000000p-1; 0x1.4000000000000p+1]; [0x1.8000000000000p+0; 0x1.4000000000000p+1]; [0x1.4000000000000p+1; 0x1.4000000000000p+1]]%float
  [9.0; 8.0; 7.0; 6.0; 5.0; 4.0; 3.0; 2.0; 1.0]%float
  (seq 0 9)
  [2; 1; 2; 1; 0; 1; 2; 1; 2]%Z
  true false true 0%float 0 true 2 4 4 4 0 1 None 0 true 1 0.

(** tests/DualGraphExamples.h, class [DualGEx_quad_7]. *)
Definition quad_7 : input := Input _
  [0; 2; 5; 8; 11; 14; 17; 19; 22; 26; 30; 34; 38; 42; 45; 48; 52; 56; 60; 64; 68; 71; 74; 78; 82; 86; 90; 94; 97; 100; 104; 108; 112; 116; 120; 123; 126; 130; 134; 138; 142; 146; 149; 151; 154; 157; 160; 163; 166; 168]
  [1; 7; 0; 2; 8; 1; 3; 9; 2; 4; 10; 3; 5; 11; 4; 6; 12; 5; 13; 0; 8; 14; 1; 7; 9; 15; 2; 8; 10; 16; 3; 9; 11; 17; 4; 10; 12; 18; 5; 11; 13; 19; 6; 12; 20; 7; 15; 21; 8; 14; 16; 22; 9; 15; 17; 23; 10; 16; 18; 24; 11; 17; 19; 25; 12; 18; 20; 26; 13; 19; 27; 14; 22; 28; 15; 21; 23; 29; 16; 22; 24; 30; 17; 23; 25; 31; 18; 24; 26; 32; 19; 25; 27; 33; 20; 26; 34; 21; 29; 35; 22; 28; 30; 36; 23; 29; 31; 37; 24; 30; 32; 38; 25; 31; 33; 39; 26; 32; 34; 40; 27; 33; 41; 28; 36; 42; 29; 35; 37; 43; 30; 36; 38; 44; 31; 37; 39; 45; 32; 38; 40; 46; 33; 39; 41; 47; 34; 40; 48; 35; 43; 36; 42; 44; 37; 43; 45; 38; 44; 46; 39; 45; 47; 40; 46; 48; 41; 47]
  (replicate 168 1.0)%float
  (replicate 49 1.0)%float
  [[0x1.0000000000000p-1; 0x1.0000000000000p-1]; [0x1.8000000000000p+0; 0x1.0000000000000p-1]; [0x1.4000000000000p+1; 0x1.0000000000000p-1]; [0x1.c000000000000p+1; 0x1.0000000000000p-1]; [0x1.2000000000000p+2; 0x1.0000000000000p-1]; [0x1.6000000000000p+2; 0x1.0000000000000p-1]; [0x1.a000000000000p+2; 0x1.0000000000000p-1]; [0x1.0000000000000p-1; 0x1.8000000000000p+0]; [0x1.8000000000000p+0; 0x1.8000000000000p+0]; [0x1.4000000000000p+1; 0x1.8000000000000p+0]; [0x1.c000000000000p+1; 0x1.8000000000000p+0]; [0x1.2000000000000p+2; 0x1.8000000000000p+0]; [0x1.6000000000000p+2; 0x1.8000000000000p+0]; [0x1.a000000000000p+2; 0x1.8000000000000p+0]; [0x1.0000000000000p-1; 0x1.4000000000000p+1]; [0x1.8000000000000p+0; 0x1.4000000000000p+1]; [0x1.4000000000000p+1; 0x1.4000000000000p+1]; [0x1.c000000000000p+1; 0x1.4000000000000p+1]; [0x1.2000000000000p+2; 0x1.4000000000000p+1]; [0x1.6000000000000p+2; 0x1.4000000000000p+1]; [0x1.a000000000000p+2; 0x1.4000000000000p+1]; [0x1.0000000000000p-1; 0x1.c000000000000p+1]; [0x1.8000000000000p+0; 0x1.c000000000000p+1]; [0x1.4000000000000p+1; 0x1.c000000000000p+1]; [0x1.c000000000000p+1; 0x1.c000000000000p+1]; [0x1.2000000000000p+2; 0x1.c000000000000p+1]; [0x1.6000000000000p+2; 0x1.c000000000000p+1]; [0x1.a000000000000p+2; 0x1.c000000000000p+1]; [0x1.0000000000000p-1; 0x1.2000000000000p+2]; [0x1.8000000000000p+0; 0x1.2000000000000p+2]; [0x1.4000000000000p+1; 0x1.2000000000000p+2]; [0x1.c000000000000p+1; 0x1.2000000000000p+2]; [0x1.2000000000000p+2; 0x1.2000000000000p+2]; [0x1.6000000000000p+2; 0x1.2000000000000p+2]; [0x1.a000000000000p+2; 0x1.2000000000000p+2]; [0x1.0000000000000p-1; 0x1.6000000000000p+2]; [0x1.8000000000000p+0; 0x1.6000000000000p+2]; [0x1.4000000000000p+1; 0x1.6000000000000p+2]; [0x1.c000000000000p+1; 0x1.6000000000000p+2]; [0x1.2000000000000p+2; 0x1.6000000000000p+2]; [0x1.6000000000000p+2; 0x1.6000000000000p+2]; [0x1.a000000000000p+2; 0x1.6000000000000p+2]; [0x1.0000000000000p-1; 0x1.a000000000000p+2]; [0x1.8000000000000p+0; 0x1.a000000000000p+2]; [0x1.4000000000000p+1; 0x1.a000000000000p+2]; [0x1.c000000000000p+1; 0x1.a000000000000p+2]; [0x1.2000000000000p+2; 0x1.a000000000000p+2]; [0x1.6000000000000p+2; 0x1.a000000000000p+2]; [0x1.a000000000000p+2; 0x1.a000000000000p+2]]%float
  [49.0; 48.0; 47.0; 46.0; 45.0; 44.0; 43.0; 42.0; 41.0; 40.0; 39.0; 38.0; 37.0; 36.0; 35.0; 34.0; 33.0; 32.0; 31.0; 30.0; 29.0; 28.0; 27.0; 26.0; 25.0; 24.0; 23.0; 22.0; 21.0; 20.0; 19.0; 18.0; 17.0; 16.0; 15.0; 14.0; 13.0; 12.0; 11.0; 10.0; 9.0; 8.0; 7.0; 6.0; 5.0; 4.0; 3.0; 2.0; 1.0]%float
  (seq 0 49)
  [2; 1; 1; 1; 1; 1; 2; 1; 0; 0; 0; 0; 0; 1; 1; 0; 0; 0; 0; 0; 1; 1; 0; 0; 0; 0; 0; 1; 1; 0; 0; 0; 0; 0; 1; 1; 0; 0; 0; 0; 0; 1; 2; 1; 1; 1; 1; 1; 2]%Z
  true false true 0%float 0 true 2 4 4 4 0 1 None 0 true 1 0.

(** tests/DualGraphExamples.h, class [DualGEx_correction]. *)
Definition correction : input := Input _
  [0; 2; 5; 8; 10; 12; 15; 18; 20]
  [1; 4; 0; 2; 5; 1; 3; 6; 2; 7; 0; 5; 1; 4; 6; 2; 5; 7; 3; 6]
  (replicate 20 1.0)%float
  [1.0; 1.0; 1.0; 1.0; 1.0; 1.0; 1.0; 1.0]%float
  [[0x1.0000000000000p-1; 0x1.0000000000000p-1]; [0x1.8000000000000p+0; 0x1.0000000000000p-1]; [0x1.4000000000000p+1; 0x1.0000000000000p-1]; [0x1.c000000000000p+1; 0x1.0000000000000p-1]; [0x1.0000000000000p-1; 0x1.8000000000000p+0]; [0x1.8000000000000p+0; 0x1.8000000000000p+0]; [0x1.4000000000000p+1; 0x1.8000000000000p+0]; [0x1.c000000000000p+1; 0x1.8000000000000p+0]]%float
  [8.0; 7.0; 6.0; 5.0; 4.0; 3.0; 2.0; 1.0]%float
  (seq 0 8)
  [2; 1; 1; 2; 2; 1; 1; 2]%Z
  true false true 0%float 0 true 2 4 4 4 0 1 None 0 true 1 0.

(** tests/DualGraphExamples.h, class [DualGEx_hole_w_corners]. *)
Definition hole_w_corners : input := Input _
  [0; 3; 6; 9; 12; 16; 20; 24; 28; 31; 34; 37; 40; 42; 44]
  [4; 12; 13; 2; 5; 13; 1; 3; 6; 2; 7; 12; 0; 7; 5; 8; 1; 4; 6; 9; 2; 5; 7; 10; 3; 4; 6; 11; 4; 11; 9; 5; 8; 10; 6; 9; 11; 7; 8; 10; 0; 3; 0; 1]
  [6.0; 1.0; 1.0; 0x1.6a09e667f3bcdp+0; 6.0; 1.0; 0x1.6a09e667f3bcdp+0; 0x1.6a09e667f3bcdp+0; 6.0; 0x1.6a09e667f3bcdp+0; 6.0; 1.0; 6.0; 0x1.6a09e667f3bcdp+0; 0x1.6a09e667f3bcdp+0; 4.0; 6.0; 0x1.6a09e667f3bcdp+0; 0x1.6a09e667f3bcdp+0; 4.0; 6.0; 0x1.6a09e667f3bcdp+0; 0x1.6a09e667f3bcdp+0; 4.0; 6.0; 0x1.6a09e667f3bcdp+0; 0x1.6a09e667f3bcdp+0; 4.0; 4.0; 0x1.6a09e667f3bcdp+0; 0x1.6a09e667f3bcdp+0; 4.0; 0x1.6a09e667f3bcdp+0; 0x1.6a09e667f3bcdp+0; 4.0; 0x1.6a09e667f3bcdp+0; 0x1.6a09e667f3bcdp+0; 4.0; 0x1.6a09e667f3bcdp+0; 0x1.6a09e667f3bcdp+0; 1.0; 1.0; 1.0; 1.0]%float
  [6.0; 0x1.a000000000000p+2; 7.0; 0x1.a000000000000p+2; 5.0; 5.0; 5.0; 5.0; 3.0; 3.0; 3.0; 3.0; 1.0; 1.0]%float
  [[0x1.c000000000000p+1; 0.0]; [(-0x1.0000000000000p-2); 0x1.c000000000000p+1]; [(-0x1.c000000000000p+1); 0.0]; [(-0x1.0000000000000p-2); (-0x1.c000000000000p+1)]; [0x1.4000000000000p+1; 0.0]; [0.0; 0x1.4000000000000p+1]; [(-0x1.4000000000000p+1); 0.0]; [0.0; (-0x1.4000000000000p+1)]; [0x1.8000000000000p+0; 0.0]; [0.0; 0x1.8000000000000p+0]; [(-0x1.8000000000000p+0); 0.0]; [0.0; (-0x1.8000000000000p+0)]; [0x1.c000000000000p+1; (-0x1.c000000000000p+1)]; [0x1.c000000000000p+1; 0x1.c000000000000p+1]]%float
  [14.0; 13.0; 12.0; 11.0; 10.0; 9.0; 8.0; 7.0; 6.0; 5.0; 4.0; 3.0; 2.0; 1.0]%float
  (seq 0 14)
  [1; 1; 1; 1; 0; 0; 0; 0; 1; 1; 1; 1; 2; 2]%Z
  true false true 0%float 0 true 2 4 4 4 0 1 None 0 true 1 0.

(** tests/DualGraphExamples.h, class [DualGEx_hole_no_corners]. *)
Definition hole_no_corners : input := Input _
  [0; 3; 6; 9; 12; 16; 20; 24; 28; 31; 34; 37; 40]
  [3; 1; 4; 0; 2; 5; 1; 3; 6; 0; 2; 7; 0; 7; 5; 8; 1; 4; 6; 9; 2; 5; 7; 10; 3; 4; 6; 11; 4; 11; 9; 5; 8; 10; 6; 9; 11; 7; 8; 10]
  [0x1.6a09e667f3bcdp+0; 0x1.6a09e667f3bcdp+0; 6.0; 0x1.6a09e667f3bcdp+0; 0x1.6a09e667f3bcdp+0; 6.0; 0x1.6a09e667f3bcdp+0; 0x1.6a09e667f3bcdp+0; 6.0; 0x1.6a09e667f3bcdp+0; 0x1.6a09e667f3bcdp+0; 6.0; 6.0; 0x1.6a09e667f3bcdp+0; 0x1.6a09e667f3bcdp+0; 4.0; 6.0; 0x1.6a09e667f3bcdp+0; 0x1.6a09e667f3bcdp+0; 4.0; 6.0; 0x1.6a09e667f3bcdp+0; 0x1.6a09e667f3bcdp+0; 4.0; 6.0; 0x1.6a09e667f3bcdp+0; 0x1.6a09e667f3bcdp+0; 4.0; 4.0; 0x1.6a09e667f3bcdp+0; 0x1.6a09e667f3bcdp+0; 4.0; 0x1.6a09e667f3bcdp+0; 0x1.6a09e667f3bcdp+0; 4.0; 0x1.6a09e667f3bcdp+0; 0x1.6a09e667f3bcdp+0; 4.0; 0x1.6a09e667f3bcdp+0; 0x1.6a09e667f3bcdp+0]%float
  [7.0; 7.0; 7.0; 7.0; 5.0; 5.0; 5.0; 5.0; 3.0; 3.0; 3.0; 3.0]%float
  [[0x1.c000000000000p+1; 0.0]; [0.0; 0x1.c000000000000p+1]; [(-0x1.c000000000000p+1); 0.0]; [0.0; (-0x1.c000000000000p+1)]; [0x1.4000000000000p+1; 0.0]; [0.0; 0x1.4000000000000p+1]; [(-0x1.4000000000000p+1); 0.0]; [0.0; (-0x1.4000000000000p+1)]; [0x1.8000000000000p+0; 0.0]; [0.0; 0x1.8000000000000p+0]; [(-0x1.8000000000000p+0); 0.0]; [0.0; (-0x1.8000000000000p+0)]]%float
  [12.0; 11.0; 10.0; 9.0; 8.0; 7.0; 6.0; 5.0; 4.0; 3.0; 2.0; 1.0]%float
  (seq 0 12)
  [1; 1; 1; 1; 0; 0; 0; 0; 1; 1; 1; 1]%Z
  true false true 0%float 0 true 2 4 4 4 0 1 None 0 true 1 0.

(** tests/DualGraphExamples.h, class [DualGEx_Tria_BL]. *)
Definition tria_bl : input := Input _
  [0; 2; 4; 5; 8; 11; 12; 14; 16]
  [1; 3; 0; 4; 3; 0; 2; 6; 1; 5; 7; 4; 3; 7; 4; 6]
  [0x1.419894c2329f0p+3; 1.0; 0x1.419894c2329f0p+3; 10.0; 0x1.419894c2329f0p+3; 1.0; 0x1.419894c2329f0p+3; 10.0; 10.0; 0x1.419894c2329f0p+3; 1.0; 0x1.419894c2329f0p+3; 10.0; 0x1.419894c2329f0p+3; 1.0; 0x1.419894c2329f0p+3]%float
  [5.0; 5.0; 5.0; 5.0; 5.0; 5.0; 5.0; 5.0]%float
  [[(-0x1.aaaaaaaaaaaabp+1); (-0x1.5555555555555p-1)]; [(-0x1.aaaaaaaaaaaabp+2); (-0x1.5555555555555p-2)]; [0x1.aaaaaaaaaaaabp+2; (-0x1.5555555555555p-1)]; [0x1.aaaaaaaaaaaabp+1; (-0x1.5555555555555p-2)]; [(-0x1.aaaaaaaaaaaabp+1); 0x1.5555555555555p-2]; [(-0x1.aaaaaaaaaaaabp+2); 0x1.5555555555555p-1]; [0x1.aaaaaaaaaaaabp+2; 0x1.5555555555555p-2]; [0x1.aaaaaaaaaaaabp+1; 0x1.5555555555555p-1]]%float
  [8.0; 7.0; 6.0; 5.0; 4.0; 3.0; 2.0; 1.0]%float
  (seq 0 8)
  [1; 1; 2; 0; 0; 2; 1; 1]%Z
  true false true 0%float 0 true 2 4 4 4 0 1 None 0 true 1 0.
