(** * The character class tables of lib/src/charset.h (copied byte for byte) *)
From Coq Require Import NArith List.
Import ListNotations.
Local Open Scope N_scope.

(** charset_NCNameStart, charset.h:5-94 *)
Definition charset_ncname_start : list N := [
  0; 1; 2; 3; 4; 5; 6; 7; 7; 8; 9; 10; 11; 12; 13; 14; 15; 16; 7; 7; 7; 7; 7; 7;
  7; 7; 7; 7; 7; 7; 17; 18; 7; 19; 7; 7; 7; 7; 7; 7; 7; 7; 7; 7; 7; 7; 7; 7;
  20; 21; 7; 7; 7; 7; 7; 7; 7; 7; 7; 7; 7; 7; 7; 7; 7; 7; 7; 7; 7; 7; 7; 7;
  7; 7; 7; 7; 7; 7; 22; 22; 22; 22; 22; 22; 22; 22; 22; 22; 22; 22; 22; 22; 22; 22; 22; 22;
  22; 22; 22; 22; 22; 22; 22; 22; 22; 22; 22; 22; 22; 22; 22; 22; 22; 22; 22; 22; 22; 22; 22; 22;
  22; 22; 22; 22; 22; 22; 22; 22; 22; 22; 22; 22; 22; 22; 22; 22; 22; 22; 22; 22; 22; 22; 22; 22;
  22; 22; 22; 22; 22; 22; 22; 22; 22; 22; 22; 22; 22; 22; 22; 23; 7; 7; 7; 7; 7; 7; 7; 7;
  7; 7; 7; 7; 22; 22; 22; 22; 22; 22; 22; 22; 22; 22; 22; 22; 22; 22; 22; 22; 22; 22; 22; 22;
  22; 22; 22; 22; 22; 22; 22; 22; 22; 22; 22; 22; 22; 22; 22; 22; 22; 22; 22; 22; 22; 22; 22; 24;
  7; 7; 7; 7; 7; 7; 7; 7; 7; 7; 7; 7; 7; 7; 7; 7; 7; 7; 7; 7; 7; 7; 7; 7;
  7; 7; 7; 7; 7; 7; 7; 7; 7; 7; 7; 7; 7; 7; 7; 7; 0; 0; 0; 0; 0; 0; 0; 0;
  254; 255; 255; 135; 254; 255; 255; 7; 0; 0; 0; 0; 0; 0; 0; 0; 255; 255; 127; 255; 255; 255; 127; 255;
  255; 255; 255; 255; 255; 255; 243; 127; 254; 253; 255; 255; 255; 255; 255; 127; 255; 255; 255; 255; 255; 255; 255; 255;
  15; 224; 255; 255; 255; 255; 49; 252; 255; 255; 255; 0; 0; 0; 0; 0; 0; 0; 255; 255; 255; 255; 255; 255;
  255; 255; 255; 255; 255; 1; 0; 248; 3; 0; 0; 0; 0; 0; 0; 0; 0; 0; 0; 0; 0; 0; 0; 0;
  0; 0; 0; 0; 0; 0; 0; 0; 64; 215; 255; 255; 251; 255; 255; 255; 255; 127; 127; 84; 253; 255; 15; 0;
  254; 223; 255; 255; 255; 255; 255; 255; 255; 255; 254; 223; 255; 255; 255; 255; 3; 0; 255; 255; 255; 255; 255; 255;
  159; 25; 255; 255; 255; 207; 63; 3; 0; 0; 0; 0; 0; 0; 254; 255; 255; 255; 127; 2; 254; 255; 255; 255;
  127; 0; 0; 0; 0; 0; 0; 0; 0; 0; 255; 255; 255; 7; 7; 0; 0; 0; 0; 0; 254; 255; 255; 7;
  254; 7; 0; 0; 0; 0; 254; 255; 255; 255; 255; 255; 255; 255; 255; 124; 255; 127; 47; 0; 96; 0; 0; 0;
  0; 0; 0; 0; 0; 0; 0; 0; 0; 0; 0; 0; 0; 0; 0; 0; 0; 0; 0; 0; 0; 0; 0; 0;
  0; 0; 0; 0; 0; 0; 0; 0; 224; 255; 255; 255; 255; 255; 255; 35; 0; 0; 0; 255; 3; 0; 0; 0;
  224; 159; 249; 255; 255; 253; 197; 3; 0; 0; 0; 176; 3; 0; 3; 0; 224; 135; 249; 255; 255; 253; 109; 3;
  0; 0; 0; 94; 0; 0; 28; 0; 224; 175; 251; 255; 255; 253; 237; 35; 0; 0; 0; 0; 1; 0; 0; 0;
  224; 159; 249; 255; 255; 253; 205; 35; 0; 0; 0; 176; 3; 0; 0; 0; 224; 199; 61; 214; 24; 199; 191; 3;
  0; 0; 0; 0; 0; 0; 0; 0; 224; 223; 253; 255; 255; 253; 239; 3; 0; 0; 0; 0; 3; 0; 0; 0;
  224; 223; 253; 255; 255; 253; 239; 3; 0; 0; 0; 64; 3; 0; 0; 0; 224; 223; 253; 255; 255; 253; 255; 3;
  0; 0; 0; 0; 3; 0; 0; 0; 0; 0; 0; 0; 0; 0; 0; 0; 0; 0; 0; 0; 0; 0; 0; 0;
  254; 255; 255; 255; 255; 127; 13; 0; 63; 0; 0; 0; 0; 0; 0; 0; 150; 37; 240; 254; 174; 108; 13; 32;
  31; 0; 0; 0; 0; 0; 0; 0; 0; 0; 0; 0; 0; 0; 0; 0; 255; 254; 255; 255; 255; 3; 0; 0;
  0; 0; 0; 0; 0; 0; 0; 0; 0; 0; 0; 0; 0; 0; 0; 0; 0; 0; 0; 0; 0; 0; 0; 0;
  0; 0; 0; 0; 0; 0; 0; 0; 0; 0; 0; 0; 255; 255; 255; 255; 63; 0; 255; 255; 255; 255; 127; 0;
  237; 218; 7; 0; 0; 0; 0; 80; 1; 80; 49; 130; 171; 98; 44; 0; 0; 0; 0; 64; 0; 201; 128; 245;
  7; 0; 0; 0; 0; 8; 1; 2; 255; 255; 255; 255; 255; 255; 255; 255; 255; 255; 255; 255; 255; 255; 255; 255;
  255; 255; 255; 15; 255; 255; 255; 255; 255; 255; 255; 255; 255; 255; 255; 3; 255; 255; 63; 63; 255; 255; 255; 255;
  63; 63; 255; 170; 255; 255; 255; 63; 255; 255; 255; 255; 255; 255; 223; 95; 220; 31; 207; 15; 255; 31; 220; 31;
  0; 0; 0; 0; 64; 76; 0; 0; 0; 0; 0; 0; 0; 0; 0; 0; 7; 0; 0; 0; 0; 0; 0; 0;
  0; 0; 0; 0; 0; 0; 0; 0; 128; 0; 0; 0; 254; 3; 0; 0; 254; 255; 255; 255; 255; 255; 255; 255;
  255; 255; 31; 0; 254; 255; 255; 255; 255; 255; 255; 255; 255; 255; 255; 7; 224; 255; 255; 255; 255; 31; 0; 0;
  0; 0; 0; 0; 0; 0; 0; 0; 0; 0; 0; 0; 0; 0; 0; 0; 0; 0; 0; 0; 0; 0; 0; 0;
  255; 255; 255; 255; 255; 255; 255; 255; 255; 255; 255; 255; 255; 255; 255; 255; 255; 255; 255; 255; 255; 255; 255; 255;
  255; 255; 255; 255; 255; 255; 255; 255; 255; 255; 255; 255; 255; 255; 255; 255; 255; 255; 255; 255; 255; 255; 255; 255;
  255; 255; 255; 255; 63; 0; 0; 0; 0; 0; 0; 0; 0; 0; 0; 0; 255; 255; 255; 255; 255; 255; 255; 255;
  255; 255; 255; 255; 255; 255; 255; 255; 255; 255; 255; 255; 15; 0; 0; 0; 0; 0; 0; 0; 0; 0; 0; 0
].
(** charset_NCNameChar, charset.h:96-188 *)
Definition charset_ncname_char : list N := [
  0; 1; 2; 3; 4; 5; 6; 7; 7; 8; 9; 10; 11; 12; 13; 14; 15; 16; 7; 7; 7; 7; 7; 7;
  7; 7; 7; 7; 7; 7; 17; 18; 19; 20; 7; 7; 7; 7; 7; 7; 7; 7; 7; 7; 7; 7; 7; 7;
  21; 22; 7; 7; 7; 7; 7; 7; 7; 7; 7; 7; 7; 7; 7; 7; 7; 7; 7; 7; 7; 7; 7; 7;
  7; 7; 7; 7; 7; 7; 23; 23; 23; 23; 23; 23; 23; 23; 23; 23; 23; 23; 23; 23; 23; 23; 23; 23;
  23; 23; 23; 23; 23; 23; 23; 23; 23; 23; 23; 23; 23; 23; 23; 23; 23; 23; 23; 23; 23; 23; 23; 23;
  23; 23; 23; 23; 23; 23; 23; 23; 23; 23; 23; 23; 23; 23; 23; 23; 23; 23; 23; 23; 23; 23; 23; 23;
  23; 23; 23; 23; 23; 23; 23; 23; 23; 23; 23; 23; 23; 23; 23; 24; 7; 7; 7; 7; 7; 7; 7; 7;
  7; 7; 7; 7; 23; 23; 23; 23; 23; 23; 23; 23; 23; 23; 23; 23; 23; 23; 23; 23; 23; 23; 23; 23;
  23; 23; 23; 23; 23; 23; 23; 23; 23; 23; 23; 23; 23; 23; 23; 23; 23; 23; 23; 23; 23; 23; 23; 25;
  7; 7; 7; 7; 7; 7; 7; 7; 7; 7; 7; 7; 7; 7; 7; 7; 7; 7; 7; 7; 7; 7; 7; 7;
  7; 7; 7; 7; 7; 7; 7; 7; 7; 7; 7; 7; 7; 7; 7; 7; 0; 0; 0; 0; 0; 96; 255; 3;
  254; 255; 255; 135; 254; 255; 255; 7; 0; 0; 0; 0; 0; 0; 128; 0; 255; 255; 127; 255; 255; 255; 127; 255;
  255; 255; 255; 255; 255; 255; 243; 127; 254; 253; 255; 255; 255; 255; 255; 127; 255; 255; 255; 255; 255; 255; 255; 255;
  15; 224; 255; 255; 255; 255; 49; 252; 255; 255; 255; 0; 0; 0; 0; 0; 0; 0; 255; 255; 255; 255; 255; 255;
  255; 255; 255; 255; 255; 1; 0; 248; 3; 0; 3; 0; 0; 0; 0; 0; 255; 255; 255; 255; 255; 255; 255; 255;
  63; 0; 0; 0; 3; 0; 0; 0; 192; 215; 255; 255; 251; 255; 255; 255; 255; 127; 127; 84; 253; 255; 15; 0;
  254; 223; 255; 255; 255; 255; 255; 255; 255; 255; 254; 223; 255; 255; 255; 255; 123; 0; 255; 255; 255; 255; 255; 255;
  159; 25; 255; 255; 255; 207; 63; 3; 0; 0; 0; 0; 0; 0; 254; 255; 255; 255; 127; 2; 254; 255; 255; 255;
  127; 0; 254; 255; 251; 255; 255; 187; 22; 0; 255; 255; 255; 7; 7; 0; 0; 0; 0; 0; 254; 255; 255; 7;
  255; 255; 7; 0; 255; 3; 255; 255; 255; 255; 255; 255; 255; 255; 255; 124; 255; 127; 239; 255; 255; 61; 255; 3;
  0; 0; 0; 0; 0; 0; 0; 0; 0; 0; 0; 0; 0; 0; 0; 0; 0; 0; 0; 0; 0; 0; 0; 0;
  0; 0; 0; 0; 0; 0; 0; 0; 238; 255; 255; 255; 255; 255; 255; 243; 255; 63; 30; 255; 207; 255; 0; 0;
  238; 159; 249; 255; 255; 253; 197; 211; 159; 57; 128; 176; 207; 255; 3; 0; 228; 135; 249; 255; 255; 253; 109; 211;
  135; 57; 0; 94; 192; 255; 31; 0; 238; 175; 251; 255; 255; 253; 237; 243; 191; 59; 0; 0; 193; 255; 0; 0;
  238; 159; 249; 255; 255; 253; 205; 243; 143; 57; 192; 176; 195; 255; 0; 0; 236; 199; 61; 214; 24; 199; 191; 195;
  199; 61; 128; 0; 128; 255; 0; 0; 238; 223; 253; 255; 255; 253; 239; 195; 223; 61; 96; 0; 195; 255; 0; 0;
  236; 223; 253; 255; 255; 253; 239; 195; 223; 61; 96; 64; 195; 255; 0; 0; 236; 223; 253; 255; 255; 253; 255; 195;
  207; 61; 128; 0; 195; 255; 0; 0; 0; 0; 0; 0; 0; 0; 0; 0; 0; 0; 0; 0; 0; 0; 0; 0;
  254; 255; 255; 255; 255; 127; 255; 7; 255; 127; 255; 3; 0; 0; 0; 0; 150; 37; 240; 254; 174; 108; 255; 59;
  95; 63; 255; 3; 0; 0; 0; 0; 0; 0; 0; 3; 255; 3; 160; 194; 255; 254; 255; 255; 255; 3; 254; 255;
  223; 15; 191; 254; 255; 63; 254; 2; 0; 0; 0; 0; 0; 0; 0; 0; 0; 0; 0; 0; 0; 0; 0; 0;
  0; 0; 0; 0; 0; 0; 0; 0; 0; 0; 0; 0; 255; 255; 255; 255; 63; 0; 255; 255; 255; 255; 127; 0;
  237; 218; 7; 0; 0; 0; 0; 80; 1; 80; 49; 130; 171; 98; 44; 0; 0; 0; 0; 64; 0; 201; 128; 245;
  7; 0; 0; 0; 0; 8; 1; 2; 255; 255; 255; 255; 255; 255; 255; 255; 255; 255; 255; 255; 255; 255; 255; 255;
  255; 255; 255; 15; 255; 255; 255; 255; 255; 255; 255; 255; 255; 255; 255; 3; 255; 255; 63; 63; 255; 255; 255; 255;
  63; 63; 255; 170; 255; 255; 255; 63; 255; 255; 255; 255; 255; 255; 223; 95; 220; 31; 207; 15; 255; 31; 220; 31;
  0; 0; 0; 0; 0; 0; 0; 0; 0; 0; 0; 0; 0; 0; 0; 0; 0; 0; 0; 0; 0; 0; 0; 0;
  0; 0; 255; 31; 2; 0; 0; 0; 0; 0; 0; 0; 64; 76; 0; 0; 0; 0; 0; 0; 0; 0; 0; 0;
  7; 0; 0; 0; 0; 0; 0; 0; 0; 0; 0; 0; 0; 0; 0; 0; 160; 0; 0; 0; 254; 255; 62; 0;
  254; 255; 255; 255; 255; 255; 255; 255; 255; 255; 31; 102; 254; 255; 255; 255; 255; 255; 255; 255; 255; 255; 255; 119;
  224; 255; 255; 255; 255; 31; 0; 0; 0; 0; 0; 0; 0; 0; 0; 0; 0; 0; 0; 0; 0; 0; 0; 0;
  0; 0; 0; 0; 0; 0; 0; 0; 255; 255; 255; 255; 255; 255; 255; 255; 255; 255; 255; 255; 255; 255; 255; 255;
  255; 255; 255; 255; 255; 255; 255; 255; 255; 255; 255; 255; 255; 255; 255; 255; 255; 255; 255; 255; 255; 255; 255; 255;
  255; 255; 255; 255; 255; 255; 255; 255; 255; 255; 255; 255; 63; 0; 0; 0; 0; 0; 0; 0; 0; 0; 0; 0;
  255; 255; 255; 255; 255; 255; 255; 255; 255; 255; 255; 255; 255; 255; 255; 255; 255; 255; 255; 255; 15; 0; 0; 0;
  0; 0; 0; 0; 0; 0; 0; 0
].
(** charset_NameStart, charset.h:190-279 *)
Definition charset_name_start : list N := [
  0; 1; 2; 3; 4; 5; 6; 7; 7; 8; 9; 10; 11; 12; 13; 14; 15; 16; 7; 7; 7; 7; 7; 7;
  7; 7; 7; 7; 7; 7; 17; 18; 7; 19; 7; 7; 7; 7; 7; 7; 7; 7; 7; 7; 7; 7; 7; 7;
  20; 21; 7; 7; 7; 7; 7; 7; 7; 7; 7; 7; 7; 7; 7; 7; 7; 7; 7; 7; 7; 7; 7; 7;
  7; 7; 7; 7; 7; 7; 22; 22; 22; 22; 22; 22; 22; 22; 22; 22; 22; 22; 22; 22; 22; 22; 22; 22;
  22; 22; 22; 22; 22; 22; 22; 22; 22; 22; 22; 22; 22; 22; 22; 22; 22; 22; 22; 22; 22; 22; 22; 22;
  22; 22; 22; 22; 22; 22; 22; 22; 22; 22; 22; 22; 22; 22; 22; 22; 22; 22; 22; 22; 22; 22; 22; 22;
  22; 22; 22; 22; 22; 22; 22; 22; 22; 22; 22; 22; 22; 22; 22; 23; 7; 7; 7; 7; 7; 7; 7; 7;
  7; 7; 7; 7; 22; 22; 22; 22; 22; 22; 22; 22; 22; 22; 22; 22; 22; 22; 22; 22; 22; 22; 22; 22;
  22; 22; 22; 22; 22; 22; 22; 22; 22; 22; 22; 22; 22; 22; 22; 22; 22; 22; 22; 22; 22; 22; 22; 24;
  7; 7; 7; 7; 7; 7; 7; 7; 7; 7; 7; 7; 7; 7; 7; 7; 7; 7; 7; 7; 7; 7; 7; 7;
  7; 7; 7; 7; 7; 7; 7; 7; 7; 7; 7; 7; 7; 7; 7; 7; 0; 0; 0; 0; 0; 0; 0; 4;
  254; 255; 255; 135; 254; 255; 255; 7; 0; 0; 0; 0; 0; 0; 0; 0; 255; 255; 127; 255; 255; 255; 127; 255;
  255; 255; 255; 255; 255; 255; 243; 127; 254; 253; 255; 255; 255; 255; 255; 127; 255; 255; 255; 255; 255; 255; 255; 255;
  15; 224; 255; 255; 255; 255; 49; 252; 255; 255; 255; 0; 0; 0; 0; 0; 0; 0; 255; 255; 255; 255; 255; 255;
  255; 255; 255; 255; 255; 1; 0; 248; 3; 0; 0; 0; 0; 0; 0; 0; 0; 0; 0; 0; 0; 0; 0; 0;
  0; 0; 0; 0; 0; 0; 0; 0; 64; 215; 255; 255; 251; 255; 255; 255; 255; 127; 127; 84; 253; 255; 15; 0;
  254; 223; 255; 255; 255; 255; 255; 255; 255; 255; 254; 223; 255; 255; 255; 255; 3; 0; 255; 255; 255; 255; 255; 255;
  159; 25; 255; 255; 255; 207; 63; 3; 0; 0; 0; 0; 0; 0; 254; 255; 255; 255; 127; 2; 254; 255; 255; 255;
  127; 0; 0; 0; 0; 0; 0; 0; 0; 0; 255; 255; 255; 7; 7; 0; 0; 0; 0; 0; 254; 255; 255; 7;
  254; 7; 0; 0; 0; 0; 254; 255; 255; 255; 255; 255; 255; 255; 255; 124; 255; 127; 47; 0; 96; 0; 0; 0;
  0; 0; 0; 0; 0; 0; 0; 0; 0; 0; 0; 0; 0; 0; 0; 0; 0; 0; 0; 0; 0; 0; 0; 0;
  0; 0; 0; 0; 0; 0; 0; 0; 224; 255; 255; 255; 255; 255; 255; 35; 0; 0; 0; 255; 3; 0; 0; 0;
  224; 159; 249; 255; 255; 253; 197; 3; 0; 0; 0; 176; 3; 0; 3; 0; 224; 135; 249; 255; 255; 253; 109; 3;
  0; 0; 0; 94; 0; 0; 28; 0; 224; 175; 251; 255; 255; 253; 237; 35; 0; 0; 0; 0; 1; 0; 0; 0;
  224; 159; 249; 255; 255; 253; 205; 35; 0; 0; 0; 176; 3; 0; 0; 0; 224; 199; 61; 214; 24; 199; 191; 3;
  0; 0; 0; 0; 0; 0; 0; 0; 224; 223; 253; 255; 255; 253; 239; 3; 0; 0; 0; 0; 3; 0; 0; 0;
  224; 223; 253; 255; 255; 253; 239; 3; 0; 0; 0; 64; 3; 0; 0; 0; 224; 223; 253; 255; 255; 253; 255; 3;
  0; 0; 0; 0; 3; 0; 0; 0; 0; 0; 0; 0; 0; 0; 0; 0; 0; 0; 0; 0; 0; 0; 0; 0;
  254; 255; 255; 255; 255; 127; 13; 0; 63; 0; 0; 0; 0; 0; 0; 0; 150; 37; 240; 254; 174; 108; 13; 32;
  31; 0; 0; 0; 0; 0; 0; 0; 0; 0; 0; 0; 0; 0; 0; 0; 255; 254; 255; 255; 255; 3; 0; 0;
  0; 0; 0; 0; 0; 0; 0; 0; 0; 0; 0; 0; 0; 0; 0; 0; 0; 0; 0; 0; 0; 0; 0; 0;
  0; 0; 0; 0; 0; 0; 0; 0; 0; 0; 0; 0; 255; 255; 255; 255; 63; 0; 255; 255; 255; 255; 127; 0;
  237; 218; 7; 0; 0; 0; 0; 80; 1; 80; 49; 130; 171; 98; 44; 0; 0; 0; 0; 64; 0; 201; 128; 245;
  7; 0; 0; 0; 0; 8; 1; 2; 255; 255; 255; 255; 255; 255; 255; 255; 255; 255; 255; 255; 255; 255; 255; 255;
  255; 255; 255; 15; 255; 255; 255; 255; 255; 255; 255; 255; 255; 255; 255; 3; 255; 255; 63; 63; 255; 255; 255; 255;
  63; 63; 255; 170; 255; 255; 255; 63; 255; 255; 255; 255; 255; 255; 223; 95; 220; 31; 207; 15; 255; 31; 220; 31;
  0; 0; 0; 0; 64; 76; 0; 0; 0; 0; 0; 0; 0; 0; 0; 0; 7; 0; 0; 0; 0; 0; 0; 0;
  0; 0; 0; 0; 0; 0; 0; 0; 128; 0; 0; 0; 254; 3; 0; 0; 254; 255; 255; 255; 255; 255; 255; 255;
  255; 255; 31; 0; 254; 255; 255; 255; 255; 255; 255; 255; 255; 255; 255; 7; 224; 255; 255; 255; 255; 31; 0; 0;
  0; 0; 0; 0; 0; 0; 0; 0; 0; 0; 0; 0; 0; 0; 0; 0; 0; 0; 0; 0; 0; 0; 0; 0;
  255; 255; 255; 255; 255; 255; 255; 255; 255; 255; 255; 255; 255; 255; 255; 255; 255; 255; 255; 255; 255; 255; 255; 255;
  255; 255; 255; 255; 255; 255; 255; 255; 255; 255; 255; 255; 255; 255; 255; 255; 255; 255; 255; 255; 255; 255; 255; 255;
  255; 255; 255; 255; 63; 0; 0; 0; 0; 0; 0; 0; 0; 0; 0; 0; 255; 255; 255; 255; 255; 255; 255; 255;
  255; 255; 255; 255; 255; 255; 255; 255; 255; 255; 255; 255; 15; 0; 0; 0; 0; 0; 0; 0; 0; 0; 0; 0
].
(** charset_NameChar, charset.h:281-373 *)
Definition charset_name_char : list N := [
  0; 1; 2; 3; 4; 5; 6; 7; 7; 8; 9; 10; 11; 12; 13; 14; 15; 16; 7; 7; 7; 7; 7; 7;
  7; 7; 7; 7; 7; 7; 17; 18; 19; 20; 7; 7; 7; 7; 7; 7; 7; 7; 7; 7; 7; 7; 7; 7;
  21; 22; 7; 7; 7; 7; 7; 7; 7; 7; 7; 7; 7; 7; 7; 7; 7; 7; 7; 7; 7; 7; 7; 7;
  7; 7; 7; 7; 7; 7; 23; 23; 23; 23; 23; 23; 23; 23; 23; 23; 23; 23; 23; 23; 23; 23; 23; 23;
  23; 23; 23; 23; 23; 23; 23; 23; 23; 23; 23; 23; 23; 23; 23; 23; 23; 23; 23; 23; 23; 23; 23; 23;
  23; 23; 23; 23; 23; 23; 23; 23; 23; 23; 23; 23; 23; 23; 23; 23; 23; 23; 23; 23; 23; 23; 23; 23;
  23; 23; 23; 23; 23; 23; 23; 23; 23; 23; 23; 23; 23; 23; 23; 24; 7; 7; 7; 7; 7; 7; 7; 7;
  7; 7; 7; 7; 23; 23; 23; 23; 23; 23; 23; 23; 23; 23; 23; 23; 23; 23; 23; 23; 23; 23; 23; 23;
  23; 23; 23; 23; 23; 23; 23; 23; 23; 23; 23; 23; 23; 23; 23; 23; 23; 23; 23; 23; 23; 23; 23; 25;
  7; 7; 7; 7; 7; 7; 7; 7; 7; 7; 7; 7; 7; 7; 7; 7; 7; 7; 7; 7; 7; 7; 7; 7;
  7; 7; 7; 7; 7; 7; 7; 7; 7; 7; 7; 7; 7; 7; 7; 7; 0; 0; 0; 0; 0; 96; 255; 7;
  254; 255; 255; 135; 254; 255; 255; 7; 0; 0; 0; 0; 0; 0; 128; 0; 255; 255; 127; 255; 255; 255; 127; 255;
  255; 255; 255; 255; 255; 255; 243; 127; 254; 253; 255; 255; 255; 255; 255; 127; 255; 255; 255; 255; 255; 255; 255; 255;
  15; 224; 255; 255; 255; 255; 49; 252; 255; 255; 255; 0; 0; 0; 0; 0; 0; 0; 255; 255; 255; 255; 255; 255;
  255; 255; 255; 255; 255; 1; 0; 248; 3; 0; 3; 0; 0; 0; 0; 0; 255; 255; 255; 255; 255; 255; 255; 255;
  63; 0; 0; 0; 3; 0; 0; 0; 192; 215; 255; 255; 251; 255; 255; 255; 255; 127; 127; 84; 253; 255; 15; 0;
  254; 223; 255; 255; 255; 255; 255; 255; 255; 255; 254; 223; 255; 255; 255; 255; 123; 0; 255; 255; 255; 255; 255; 255;
  159; 25; 255; 255; 255; 207; 63; 3; 0; 0; 0; 0; 0; 0; 254; 255; 255; 255; 127; 2; 254; 255; 255; 255;
  127; 0; 254; 255; 251; 255; 255; 187; 22; 0; 255; 255; 255; 7; 7; 0; 0; 0; 0; 0; 254; 255; 255; 7;
  255; 255; 7; 0; 255; 3; 255; 255; 255; 255; 255; 255; 255; 255; 255; 124; 255; 127; 239; 255; 255; 61; 255; 3;
  0; 0; 0; 0; 0; 0; 0; 0; 0; 0; 0; 0; 0; 0; 0; 0; 0; 0; 0; 0; 0; 0; 0; 0;
  0; 0; 0; 0; 0; 0; 0; 0; 238; 255; 255; 255; 255; 255; 255; 243; 255; 63; 30; 255; 207; 255; 0; 0;
  238; 159; 249; 255; 255; 253; 197; 211; 159; 57; 128; 176; 207; 255; 3; 0; 228; 135; 249; 255; 255; 253; 109; 211;
  135; 57; 0; 94; 192; 255; 31; 0; 238; 175; 251; 255; 255; 253; 237; 243; 191; 59; 0; 0; 193; 255; 0; 0;
  238; 159; 249; 255; 255; 253; 205; 243; 143; 57; 192; 176; 195; 255; 0; 0; 236; 199; 61; 214; 24; 199; 191; 195;
  199; 61; 128; 0; 128; 255; 0; 0; 238; 223; 253; 255; 255; 253; 239; 195; 223; 61; 96; 0; 195; 255; 0; 0;
  236; 223; 253; 255; 255; 253; 239; 195; 223; 61; 96; 64; 195; 255; 0; 0; 236; 223; 253; 255; 255; 253; 255; 195;
  207; 61; 128; 0; 195; 255; 0; 0; 0; 0; 0; 0; 0; 0; 0; 0; 0; 0; 0; 0; 0; 0; 0; 0;
  254; 255; 255; 255; 255; 127; 255; 7; 255; 127; 255; 3; 0; 0; 0; 0; 150; 37; 240; 254; 174; 108; 255; 59;
  95; 63; 255; 3; 0; 0; 0; 0; 0; 0; 0; 3; 255; 3; 160; 194; 255; 254; 255; 255; 255; 3; 254; 255;
  223; 15; 191; 254; 255; 63; 254; 2; 0; 0; 0; 0; 0; 0; 0; 0; 0; 0; 0; 0; 0; 0; 0; 0;
  0; 0; 0; 0; 0; 0; 0; 0; 0; 0; 0; 0; 255; 255; 255; 255; 63; 0; 255; 255; 255; 255; 127; 0;
  237; 218; 7; 0; 0; 0; 0; 80; 1; 80; 49; 130; 171; 98; 44; 0; 0; 0; 0; 64; 0; 201; 128; 245;
  7; 0; 0; 0; 0; 8; 1; 2; 255; 255; 255; 255; 255; 255; 255; 255; 255; 255; 255; 255; 255; 255; 255; 255;
  255; 255; 255; 15; 255; 255; 255; 255; 255; 255; 255; 255; 255; 255; 255; 3; 255; 255; 63; 63; 255; 255; 255; 255;
  63; 63; 255; 170; 255; 255; 255; 63; 255; 255; 255; 255; 255; 255; 223; 95; 220; 31; 207; 15; 255; 31; 220; 31;
  0; 0; 0; 0; 0; 0; 0; 0; 0; 0; 0; 0; 0; 0; 0; 0; 0; 0; 0; 0; 0; 0; 0; 0;
  0; 0; 255; 31; 2; 0; 0; 0; 0; 0; 0; 0; 64; 76; 0; 0; 0; 0; 0; 0; 0; 0; 0; 0;
  7; 0; 0; 0; 0; 0; 0; 0; 0; 0; 0; 0; 0; 0; 0; 0; 160; 0; 0; 0; 254; 255; 62; 0;
  254; 255; 255; 255; 255; 255; 255; 255; 255; 255; 31; 102; 254; 255; 255; 255; 255; 255; 255; 255; 255; 255; 255; 119;
  224; 255; 255; 255; 255; 31; 0; 0; 0; 0; 0; 0; 0; 0; 0; 0; 0; 0; 0; 0; 0; 0; 0; 0;
  0; 0; 0; 0; 0; 0; 0; 0; 255; 255; 255; 255; 255; 255; 255; 255; 255; 255; 255; 255; 255; 255; 255; 255;
  255; 255; 255; 255; 255; 255; 255; 255; 255; 255; 255; 255; 255; 255; 255; 255; 255; 255; 255; 255; 255; 255; 255; 255;
  255; 255; 255; 255; 255; 255; 255; 255; 255; 255; 255; 255; 63; 0; 0; 0; 0; 0; 0; 0; 0; 0; 0; 0;
  255; 255; 255; 255; 255; 255; 255; 255; 255; 255; 255; 255; 255; 255; 255; 255; 255; 255; 255; 255; 15; 0; 0; 0;
  0; 0; 0; 0; 0; 0; 0; 0
].
