(** The character property table of /repo, line by line. *)
From Verif Require Import Base.
Local Open Scope Z_scope.

(** [props_index] (S/char_set/props_data.hpp:31-46). *)
Definition props_0 : list Z := [
0x495; 0x49d; 0x4a5; 0x4ad; 0x4c5; 0x4cd; 0x4d5; 0x4dd; 0x4e5; 0x4ed; 0x4f3; 0x4fb; 0x503; 0x50b; 0x513; 0x51b;
0x521; 0x529; 0x531; 0x539; 0x53c; 0x544; 0x54c; 0x554; 0x55c; 0x564; 0x560; 0x568; 0x570; 0x578; 0x57d; 0x585;
0x58d; 0x595; 0x599; 0x5a1; 0x5a9; 0x5b1; 0x5b9; 0x5c1; 0x5bd; 0x5c5; 0x5ca; 0x5d2; 0x5d8; 0x5e0; 0x5e8; 0x5f0;
0x5f8; 0x600; 0x608; 0x610; 0x615; 0x61d; 0x620; 0x628; 0x630; 0x638; 0x63e; 0x646; 0x645; 0x64d; 0x655; 0x65d;
0x66d; 0x665; 0x675; 0x67d; 0x683; 0x600; 0x693; 0x68b; 0x6a3; 0x6a5; 0x6ad; 0x69b; 0x6bd; 0x6c3; 0x6cb; 0x6b5;
0x6db; 0x6e1; 0x6e9; 0x6d3; 0x6f9; 0x6ff; 0x707; 0x6f1; 0x717; 0x71d; 0x725; 0x70f; 0x735; 0x73d; 0x745; 0x72d;
0x755; 0x75b; 0x763; 0x74d; 0x773; 0x779; 0x781; 0x76b; 0x791; 0x796; 0x79e; 0x789; 0x7ae; 0x7b5; 0x7bd; 0x7a6;
0x641; 0x7c5; 0x7cd; 0x4b5; 0x7d5; 0x7dc; 0x7e4; 0x4b5; 0x7ec; 0x7f4; 0x7fc; 0x801; 0x809; 0x810; 0x818; 0x4b5;
0x600; 0x820; 0x828; 0x830; 0x838; 0x58d; 0x848; 0x840; 0x600; 0x600; 0x600; 0x600; 0x600; 0x600; 0x600; 0x600;
0x600; 0x600; 0x850; 0x600; 0x858; 0x85c; 0x864; 0x600; 0x86a; 0x600; 0x870; 0x878; 0x880; 0x58d; 0x58d; 0x888;
0x890; 0x600; 0x600; 0x600; 0x600; 0x600; 0x600; 0x600; 0x600; 0x600; 0x600; 0x600; 0x600; 0x600; 0x600; 0x600;
0x600; 0x600; 0x600; 0x895; 0x89d; 0x600; 0x600; 0x8a5; 0x8ad; 0x8b5; 0x8bd; 0x8c5; 0x600; 0x8cd; 0x8d5; 0x8dd;
0x8ed; 0x600; 0x8f5; 0x8f7; 0x8ff; 0x8e5; 0x600; 0x902; 0x916; 0x90a; 0x912; 0x91e; 0x600; 0x926; 0x92c; 0x934;
0x93c; 0x600; 0x94c; 0x954; 0x95c; 0x944; 0x96c; 0x4b5; 0x974; 0x977; 0x97f; 0x964; 0x98f; 0x987; 0x600; 0x996;
0x600; 0x9a5; 0x99e; 0x9ad; 0x9b5; 0x9b9; 0x9c1; 0x9c9; 0x535; 0x9d1; 0x9d4; 0x9da; 0x9e1; 0x9d4; 0x55c; 0x55c;
0x4e5; 0x4e5; 0x4e5; 0x4e5; 0x9e9; 0x4e5; 0x4e5; 0x4e5; 0x9f9; 0xa01; 0xa09; 0xa11; 0xa19; 0xa1d; 0xa25; 0x9f1].
(** [props_index] (S/char_set/props_data.hpp:47-62). *)
Definition props_1 : list Z := [
0xa3d; 0xa45; 0xa2d; 0xa35; 0xa4d; 0xa55; 0xa5d; 0xa65; 0xa7d; 0xa6d; 0xa75; 0xa85; 0xa8d; 0xa9c; 0xaa1; 0xa94;
0xaa9; 0xaa9; 0xaa9; 0xaa9; 0xaa9; 0xaa9; 0xaa9; 0xaa9; 0xab1; 0xab9; 0x934; 0xabc; 0xac4; 0xacb; 0xad0; 0xad8;
0x934; 0xadf; 0xade; 0xaef; 0xaf2; 0x934; 0x934; 0xae7; 0x934; 0x934; 0x934; 0x934; 0x934; 0xb01; 0xb09; 0xaf9;
0x934; 0x934; 0x934; 0xb0e; 0x934; 0x934; 0x934; 0x934; 0x934; 0x934; 0x934; 0xb14; 0xb1c; 0x934; 0xb24; 0xb2b;
0x934; 0x934; 0x934; 0x934; 0x934; 0x934; 0x934; 0x934; 0xaa9; 0xaa9; 0xaa9; 0xaa9; 0xb33; 0xaa9; 0xb3a; 0xb41;
0xaa9; 0xaa9; 0xaa9; 0xaa9; 0xaa9; 0xaa9; 0xaa9; 0xaa9; 0x934; 0xb49; 0xb50; 0xb54; 0xb5a; 0x934; 0x934; 0x934;
0x58d; 0x595; 0x535; 0xb62; 0x4e5; 0x4e5; 0x4e5; 0xb6a; 0x535; 0xb72; 0x600; 0xb78; 0xb88; 0xb80; 0xb80; 0x55c;
0xb90; 0xb98; 0xba0; 0x4b5; 0xba8; 0x934; 0x934; 0xbaf; 0x934; 0x934; 0x934; 0x934; 0x934; 0x934; 0xbb7; 0xbbd;
0xbcd; 0xbc5; 0x641; 0x600; 0xbd5; 0x890; 0x600; 0xbdd; 0xbe5; 0xbe9; 0x600; 0x600; 0xbee; 0x600; 0x934; 0xbf5;
0xad9; 0xbfd; 0xc03; 0x934; 0xbfd; 0xc0b; 0x934; 0x934; 0x934; 0x934; 0x934; 0x934; 0x934; 0x934; 0x934; 0x934;
0xc13; 0x600; 0x600; 0x600; 0xc1b; 0x600; 0x600; 0x600; 0x600; 0x600; 0x600; 0x600; 0x600; 0x600; 0x600; 0x600;
0x600; 0x600; 0x600; 0x600; 0x600; 0x600; 0x600; 0x600; 0x600; 0x600; 0x600; 0x600; 0x600; 0x600; 0x600; 0x600;
0x600; 0xc21; 0x600; 0x600; 0x600; 0x600; 0x600; 0x600; 0x600; 0x600; 0x600; 0x600; 0x600; 0x600; 0x600; 0x600;
0x600; 0x600; 0x600; 0x600; 0x600; 0x600; 0x600; 0x600; 0x600; 0x600; 0xc26; 0x600; 0x600; 0x600; 0x600; 0x600;
0x600; 0x600; 0x600; 0x600; 0x600; 0x600; 0x600; 0x600; 0x600; 0x600; 0x600; 0x600; 0x600; 0x600; 0x600; 0x600;
0x600; 0x600; 0x600; 0x600; 0x600; 0x600; 0x600; 0x600; 0x600; 0x600; 0x600; 0x600; 0x600; 0x600; 0x600; 0x600].
(** [props_index] (S/char_set/props_data.hpp:63-78). *)
Definition props_2 : list Z := [
0x600; 0x600; 0x600; 0x600; 0x600; 0x600; 0x600; 0x600; 0x600; 0x600; 0x600; 0x600; 0x600; 0x600; 0x600; 0x600;
0x600; 0x600; 0x600; 0x600; 0x600; 0x600; 0x600; 0x600; 0x600; 0x600; 0x600; 0x600; 0x600; 0x600; 0x600; 0x600;
0x600; 0x600; 0x600; 0x600; 0x600; 0x600; 0x600; 0x600; 0x600; 0x600; 0x600; 0x600; 0x600; 0x600; 0x600; 0x600;
0x600; 0x600; 0x600; 0x600; 0x600; 0x600; 0x600; 0x600; 0x600; 0x600; 0x600; 0x600; 0x600; 0x600; 0x600; 0x600;
0x600; 0x600; 0x600; 0x600; 0x600; 0x600; 0x600; 0x600; 0x600; 0x600; 0x600; 0x600; 0x600; 0x600; 0x600; 0x600;
0x600; 0x600; 0x600; 0x600; 0x600; 0x600; 0x600; 0x600; 0x600; 0x600; 0x600; 0x600; 0x600; 0x600; 0x600; 0x600;
0x600; 0x600; 0x600; 0x600; 0x600; 0x600; 0x600; 0x600; 0x600; 0x600; 0x600; 0x600; 0x600; 0x600; 0x934; 0x934;
0xc2e; 0x600; 0xc31; 0x600; 0xc39; 0xc3f; 0xc47; 0xc4f; 0xc54; 0x600; 0x600; 0xc58; 0x600; 0x600; 0x600; 0x600;
0x600; 0x600; 0x600; 0x600; 0x600; 0x600; 0x600; 0x600; 0xc5f; 0x600; 0xc66; 0xc6c; 0x600; 0x600; 0x600; 0x600;
0x600; 0x600; 0x600; 0x600; 0x600; 0x600; 0x600; 0x600; 0x600; 0x600; 0xc74; 0x600; 0x600; 0x600; 0xc7c; 0x600;
0x600; 0x600; 0x600; 0x600; 0x600; 0x600; 0x600; 0x600; 0x600; 0x600; 0x600; 0x600; 0x600; 0x600; 0x600; 0x600;
0x600; 0x600; 0x600; 0x600; 0x600; 0x600; 0xc7e; 0x600; 0x600; 0x600; 0x600; 0x600; 0x600; 0x600; 0x600; 0x600;
0x600; 0x600; 0x600; 0x600; 0x600; 0x600; 0x600; 0xc85; 0x600; 0x600; 0x600; 0x600; 0x600; 0x600; 0x600; 0x600;
0x600; 0x600; 0x600; 0x600; 0x600; 0x600; 0x600; 0x600; 0x600; 0x600; 0x600; 0x600; 0x600; 0x600; 0x600; 0x600;
0x600; 0x600; 0x600; 0x600; 0x600; 0x600; 0x600; 0x600; 0x600; 0x600; 0x600; 0x600; 0x600; 0x600; 0x600; 0x600;
0x600; 0x600; 0x600; 0xc8c; 0x600; 0x600; 0x600; 0xc93; 0xc9b; 0x600; 0x600; 0x600; 0x600; 0x600; 0x600; 0x600].
(** [props_index] (S/char_set/props_data.hpp:79-94). *)
Definition props_3 : list Z := [
0x600; 0x600; 0x600; 0x600; 0x600; 0x600; 0x600; 0x600; 0x600; 0x600; 0x600; 0x600; 0x600; 0x600; 0x600; 0x600;
0x600; 0x600; 0x600; 0x600; 0x600; 0x600; 0x600; 0xca0; 0x600; 0x600; 0xca8; 0x600; 0x600; 0x600; 0x600; 0x600;
0x600; 0x600; 0x600; 0x600; 0x600; 0x600; 0x600; 0x600; 0x600; 0x600; 0x600; 0x600; 0x600; 0x600; 0x600; 0x600;
0x600; 0x600; 0x600; 0x600; 0x600; 0x600; 0x600; 0x600; 0x600; 0x600; 0x600; 0x600; 0x600; 0x600; 0xcac; 0x600;
0x600; 0x600; 0x600; 0x600; 0x600; 0x600; 0x600; 0x600; 0x600; 0x600; 0x600; 0x600; 0x600; 0x600; 0x600; 0x600;
0x600; 0x600; 0x600; 0x600; 0x600; 0x600; 0x600; 0x600; 0x600; 0x600; 0x600; 0x600; 0x600; 0x600; 0x600; 0x600;
0x600; 0x600; 0x600; 0x600; 0x600; 0x600; 0x600; 0x600; 0x600; 0x600; 0x600; 0x600; 0x600; 0x600; 0x600; 0x600;
0x600; 0x600; 0x600; 0x600; 0x600; 0x600; 0x600; 0x600; 0xcaf; 0x600; 0x600; 0x600; 0x600; 0x600; 0x600; 0x600;
0x600; 0x600; 0x600; 0x600; 0x600; 0x600; 0x600; 0x600; 0x600; 0x600; 0x600; 0x600; 0x600; 0x600; 0x600; 0x600;
0x600; 0x600; 0x600; 0x600; 0x600; 0x600; 0x600; 0x600; 0x600; 0x600; 0x600; 0x600; 0xcb2; 0x600; 0x600; 0x600;
0x600; 0x600; 0x600; 0x600; 0x600; 0x600; 0x600; 0x600; 0x600; 0x600; 0x600; 0x600; 0x600; 0x600; 0x600; 0x600;
0x600; 0x600; 0x600; 0xcb8; 0x600; 0x600; 0x600; 0x600; 0x600; 0x600; 0x600; 0x600; 0x600; 0x600; 0x600; 0x600;
0x600; 0x600; 0x600; 0x600; 0x600; 0x600; 0x600; 0x600; 0x600; 0x600; 0x600; 0x600; 0x600; 0x600; 0x600; 0x600;
0x600; 0x600; 0x600; 0x600; 0x600; 0x600; 0x600; 0x600; 0x600; 0x600; 0x600; 0x600; 0x600; 0x600; 0x600; 0x600;
0x600; 0x600; 0x600; 0x600; 0x600; 0x600; 0x600; 0x600; 0x600; 0x600; 0x600; 0x600; 0x600; 0x600; 0x600; 0x600;
0x600; 0x600; 0x600; 0x600; 0x600; 0x600; 0x600; 0x600; 0x600; 0x600; 0x600; 0x600; 0x600; 0x600; 0x600; 0x600].
(** [props_index] (S/char_set/props_data.hpp:95-110). *)
Definition props_4 : list Z := [
0x600; 0x600; 0x600; 0x600; 0xcc0; 0x600; 0x600; 0x600; 0x600; 0x600; 0x600; 0x600; 0x600; 0x600; 0x600; 0x600;
0x600; 0x600; 0x600; 0x600; 0x600; 0x600; 0x600; 0x600; 0x600; 0x600; 0x600; 0x600; 0x600; 0x600; 0x600; 0x600;
0x600; 0xcc5; 0x600; 0x600; 0x600; 0x600; 0x600; 0x600; 0x600; 0x600; 0x600; 0x600; 0x600; 0x600; 0x600; 0x600;
0x600; 0x600; 0x600; 0x600; 0x600; 0x600; 0x600; 0x600; 0x600; 0x600; 0x600; 0x600; 0x600; 0x600; 0x600; 0x600;
0x600; 0x600; 0x600; 0x600; 0x600; 0x600; 0x600; 0x600; 0x600; 0x600; 0x600; 0x600; 0x600; 0x600; 0x600; 0x600;
0x600; 0x600; 0x600; 0x600; 0x600; 0x600; 0x600; 0x600; 0x600; 0x600; 0x600; 0x600; 0x600; 0x600; 0x600; 0x600;
0x600; 0x600; 0x600; 0x600; 0x600; 0xcca; 0x600; 0x600; 0x600; 0xccf; 0x600; 0x600; 0x600; 0x600; 0x600; 0x600;
0x600; 0x600; 0x600; 0x600; 0x600; 0x600; 0x600; 0x600; 0x600; 0x600; 0x600; 0x600; 0x600; 0x600; 0x600; 0x600;
0x600; 0x600; 0x600; 0x600; 0x600; 0x600; 0x600; 0x600; 0x600; 0x600; 0x600; 0x600; 0x600; 0x600; 0x600; 0x600;
0x600; 0x600; 0x600; 0x600; 0x600; 0x600; 0x600; 0x600; 0x600; 0x600; 0x600; 0x600; 0x600; 0x600; 0x600; 0x600;
0x600; 0x600; 0x600; 0x600; 0x600; 0x600; 0x600; 0x600; 0x600; 0x600; 0x600; 0x600; 0x600; 0x600; 0x600; 0x600;
0x600; 0xcd7; 0xcde; 0xce2; 0x600; 0x600; 0x600; 0xce9; 0x600; 0x600; 0x600; 0x600; 0x600; 0x600; 0x600; 0x600;
0x600; 0x600; 0x600; 0x600; 0x600; 0x600; 0x600; 0x600; 0x600; 0x600; 0x600; 0x600; 0x600; 0x600; 0x600; 0x600;
0x600; 0x600; 0x600; 0x600; 0x600; 0x600; 0x600; 0x600; 0x600; 0x600; 0x600; 0x600; 0x600; 0x600; 0x600; 0x600;
0x600; 0x600; 0x600; 0x600; 0x600; 0x600; 0x600; 0x600; 0x600; 0x600; 0x600; 0x600; 0x600; 0x600; 0x600; 0x600;
0x600; 0x600; 0x600; 0x600; 0x600; 0x600; 0x600; 0x600; 0x600; 0x600; 0x600; 0x600; 0x600; 0x600; 0x600; 0x600].
(** [props_index] (S/char_set/props_data.hpp:111-126). *)
Definition props_5 : list Z := [
0xcf7; 0x600; 0x600; 0x600; 0x600; 0x600; 0x600; 0x600; 0x600; 0x600; 0x600; 0x600; 0x600; 0x600; 0x600; 0x600;
0x600; 0x600; 0x600; 0x600; 0x600; 0x600; 0x600; 0x600; 0x600; 0x600; 0x600; 0x600; 0x600; 0x600; 0x600; 0x600;
0x600; 0x600; 0x600; 0x600; 0xcef; 0x934; 0xcff; 0x9ad; 0x600; 0x600; 0x600; 0x600; 0x600; 0x600; 0x600; 0x600;
0xd04; 0xd0c; 0x4e5; 0xd1c; 0xd14; 0x600; 0x600; 0xd24; 0xd2c; 0xd3c; 0x4e5; 0xd41; 0xd49; 0xd4f; 0xd56; 0xd34;
0xd5e; 0xd66; 0x600; 0xd6e; 0xd7e; 0xd81; 0xd76; 0xd89; 0x655; 0xd91; 0xd98; 0x8f6; 0x6a3; 0xda8; 0xda0; 0xdb0;
0x600; 0xdb8; 0xdc0; 0xdc8; 0x600; 0xdd0; 0xdd8; 0xde0; 0xde8; 0xdf0; 0xdf4; 0xdfc; 0x535; 0x535; 0x600; 0xe04;
0x600; 0x600; 0x600; 0x600; 0x600; 0x600; 0x600; 0x600; 0x600; 0x600; 0x600; 0x600; 0x600; 0x600; 0x600; 0x600;
0x600; 0x600; 0x600; 0x600; 0x600; 0x600; 0x600; 0x600; 0x600; 0x600; 0x600; 0x600; 0x600; 0x600; 0x600; 0x600;
0x600; 0x600; 0x600; 0x600; 0x600; 0x600; 0x600; 0x600; 0x600; 0x600; 0x600; 0x600; 0x600; 0x600; 0x600; 0x600;
0x600; 0x600; 0x600; 0x600; 0x600; 0x600; 0x600; 0x600; 0x600; 0x600; 0x600; 0x600; 0x600; 0x600; 0x600; 0x600;
0x600; 0x600; 0x600; 0x600; 0x600; 0x600; 0x600; 0x600; 0x600; 0x600; 0x600; 0x600; 0x600; 0x600; 0x600; 0x600;
0x600; 0x600; 0x600; 0x600; 0x600; 0x600; 0x600; 0x600; 0x600; 0x600; 0x600; 0x600; 0x600; 0x600; 0x600; 0x600;
0x600; 0x600; 0x600; 0x600; 0x600; 0x600; 0x600; 0x600; 0x600; 0x600; 0x600; 0x600; 0x600; 0x600; 0x600; 0x600;
0x600; 0x600; 0x600; 0x600; 0x600; 0x600; 0x600; 0x600; 0x600; 0x600; 0x600; 0x600; 0x600; 0x600; 0x600; 0x600;
0x600; 0x600; 0x600; 0x600; 0x600; 0x600; 0x600; 0x600; 0x600; 0x600; 0x600; 0x600; 0x600; 0x600; 0x600; 0x600;
0x600; 0x600; 0x600; 0x600; 0x600; 0x600; 0x600; 0x600; 0x600; 0x600; 0x600; 0x600; 0x600; 0x600; 0x600; 0x600].
(** [props_index] (S/char_set/props_data.hpp:127-142). *)
Definition props_6 : list Z := [
0x600; 0x600; 0x600; 0x600; 0x600; 0x600; 0x600; 0x600; 0x600; 0x600; 0x600; 0x600; 0x600; 0x600; 0x600; 0x600;
0x600; 0x600; 0x600; 0x600; 0x600; 0x600; 0x600; 0x600; 0x600; 0x600; 0x600; 0x600; 0x600; 0x600; 0x600; 0x600;
0x600; 0x600; 0x600; 0x600; 0x600; 0x600; 0x600; 0x600; 0x600; 0x600; 0x600; 0x600; 0x600; 0x600; 0x600; 0x600;
0x600; 0x600; 0x600; 0x600; 0x600; 0x600; 0x600; 0x600; 0x600; 0x600; 0x600; 0x600; 0x600; 0x600; 0x600; 0x600;
0x600; 0x600; 0x600; 0x600; 0x600; 0x600; 0x600; 0x600; 0x600; 0x600; 0x600; 0x600; 0x600; 0x600; 0x600; 0x600;
0x600; 0x600; 0x600; 0x600; 0x600; 0x600; 0x600; 0x600; 0x600; 0x600; 0x600; 0x600; 0x600; 0x600; 0x600; 0x600;
0x600; 0x600; 0x600; 0x600; 0x600; 0x600; 0x600; 0x600; 0x600; 0x600; 0x600; 0x600; 0x600; 0x600; 0x600; 0x600;
0x600; 0x600; 0x600; 0x600; 0x600; 0x600; 0x600; 0x600; 0x600; 0x600; 0x600; 0x600; 0x600; 0x600; 0x600; 0x600;
0x600; 0x600; 0x600; 0x600; 0x600; 0x600; 0x600; 0x600; 0x600; 0x600; 0x600; 0x600; 0x600; 0x600; 0x600; 0x600;
0x600; 0x600; 0x600; 0x600; 0x600; 0x600; 0x600; 0x600; 0x600; 0x600; 0x600; 0x600; 0x600; 0x600; 0x600; 0x600;
0x600; 0x600; 0x600; 0x600; 0x600; 0x600; 0x600; 0x600; 0x600; 0x600; 0x600; 0x600; 0x600; 0x600; 0x600; 0x600;
0x600; 0x600; 0x600; 0x600; 0x600; 0x600; 0x600; 0x600; 0x600; 0x600; 0x600; 0x600; 0x600; 0xe0c; 0xe18; 0xe10;
0x4b5; 0x4b5; 0x4b5; 0x4b5; 0x4b5; 0x4b5; 0x4b5; 0x4b5; 0x4b5; 0x4b5; 0x4b5; 0x4b5; 0x4b5; 0x4b5; 0x4b5; 0x4b5;
0x4b5; 0x4b5; 0x4b5; 0x4b5; 0x4b5; 0x4b5; 0x4b5; 0x4b5; 0x4b5; 0x4b5; 0x4b5; 0x4b5; 0x4b5; 0x4b5; 0x4b5; 0x4b5;
0xe20; 0xe20; 0xe20; 0xe20; 0xe20; 0xe20; 0xe20; 0xe20; 0xe20; 0xe20; 0xe20; 0xe20; 0xe20; 0xe20; 0xe20; 0xe20;
0xe20; 0xe20; 0xe20; 0xe20; 0xe20; 0xe20; 0xe20; 0xe20; 0xe20; 0xe20; 0xe20; 0xe20; 0xe20; 0xe20; 0xe20; 0xe20].
(** [props_index] (S/char_set/props_data.hpp:143-158). *)
Definition props_7 : list Z := [
0xe28; 0xe28; 0xe28; 0xe28; 0xe28; 0xe28; 0xe28; 0xe28; 0xe28; 0xe28; 0xe28; 0xe28; 0xe28; 0xe28; 0xe28; 0xe28;
0xe28; 0xe28; 0xe28; 0xe28; 0xe28; 0xe28; 0xe28; 0xe28; 0xe28; 0xe28; 0xe28; 0xe28; 0xe28; 0xe28; 0xe28; 0xe28;
0xe28; 0xe28; 0xe28; 0xe28; 0xe28; 0xe28; 0xe28; 0xe28; 0xe28; 0xe28; 0xe28; 0xe28; 0xe28; 0xe28; 0xe28; 0xe28;
0xe28; 0xe28; 0xe28; 0xe28; 0xe28; 0xe28; 0xe28; 0xe28; 0xe28; 0xe28; 0xe28; 0xe28; 0xe28; 0xe28; 0xe28; 0xe28;
0xe28; 0xe28; 0xe28; 0xe28; 0xe28; 0xe28; 0xe28; 0xe28; 0xe28; 0xe28; 0xe28; 0xe28; 0xe28; 0xe28; 0xe28; 0xe28;
0xe28; 0xe28; 0xe28; 0xe28; 0xe28; 0xe28; 0xe28; 0xe28; 0xe28; 0xe28; 0xe28; 0xe28; 0xe28; 0xe28; 0xe28; 0xe28;
0xe28; 0xe28; 0xe28; 0xe28; 0xe28; 0xe28; 0xe28; 0xe28; 0xe28; 0xe28; 0xe28; 0xe28; 0xe28; 0xe28; 0xe28; 0xe28;
0xe28; 0xe28; 0xe28; 0xe28; 0xe28; 0xe28; 0xe28; 0xe28; 0xe28; 0xe28; 0xe28; 0xe28; 0xe28; 0xe28; 0xe28; 0xe28;
0xe28; 0xe28; 0xe28; 0xe28; 0xe28; 0xe28; 0xe28; 0xe28; 0xe28; 0xe28; 0xe28; 0xe28; 0xe28; 0xe28; 0xe28; 0xe28;
0xe28; 0xe28; 0xe28; 0xe28; 0xe28; 0xe28; 0xe28; 0xe28; 0xe28; 0xe28; 0xe28; 0xe28; 0xe28; 0xe28; 0xe28; 0xe28;
0xe28; 0xe28; 0xe28; 0xe28; 0xe28; 0xe28; 0xe28; 0xe28; 0xe28; 0xe28; 0xe28; 0xe28; 0xe28; 0xe28; 0xe28; 0xe28;
0xe28; 0xe28; 0xe28; 0xe28; 0xe28; 0xe28; 0xe28; 0xe28; 0xe28; 0xe28; 0xe28; 0xe28; 0xe28; 0xe28; 0xe28; 0xe28;
0xe28; 0xe28; 0xe28; 0xe28; 0xe28; 0xe28; 0xe28; 0xe28; 0x600; 0x600; 0x600; 0xe30; 0x600; 0xcea; 0xe37; 0xe3c;
0x600; 0x600; 0x600; 0xe44; 0x600; 0x600; 0x901; 0x4b5; 0xe5a; 0xe4a; 0xe52; 0x600; 0x600; 0xe62; 0xe6a; 0x600;
0x600; 0x600; 0x600; 0x600; 0x600; 0x600; 0x600; 0x600; 0x600; 0xe6f; 0x938; 0x600; 0xe77; 0x600; 0xe7d; 0xe81;
0xe89; 0xe91; 0xe98; 0xea0; 0x600; 0x600; 0x600; 0xea6; 0xebe; 0x4a5; 0xec6; 0xece; 0xed3; 0x916; 0xeae; 0xeb6].
(** [props_index] (S/char_set/props_data.hpp:159-174). *)
Definition props_8 : list Z := [
0xe20; 0xe20; 0xe20; 0xe20; 0xe20; 0xe20; 0xe20; 0xe20; 0xe20; 0xe20; 0xe20; 0xe20; 0xe20; 0xe20; 0xe20; 0xe20;
0xe20; 0xe20; 0xe20; 0xe20; 0xe20; 0xe20; 0xe20; 0xe20; 0xe20; 0xe20; 0xe20; 0xe20; 0xe20; 0xe20; 0xe20; 0xe20;
0x12d4; 0x12d4; 0x1314; 0x1354; 0x1394; 0x13cc; 0x140c; 0x144c; 0x1484; 0x14c4; 0x14f0; 0x1530; 0x1570; 0x1580; 0x15c0; 0x15f4;
0x1634; 0x1664; 0x16a4; 0x16e4; 0x16f4; 0x1728; 0x1760; 0x17a0; 0x17e0; 0x1820; 0x1854; 0x1880; 0x18c0; 0x18f8; 0x1914; 0x1954;
0xa80; 0xac0; 0xb00; 0xb40; 0xb80; 0xbab; 0xbeb; 0xa40; 0xc0e; 0xa40; 0xa40; 0xa40; 0xa40; 0xc4e; 0x1db; 0x1db;
0xc8e; 0xcce; 0xa40; 0xa40; 0xa40; 0xcf7; 0xd37; 0xd57; 0xa40; 0xd7d; 0xdbd; 0xdfd; 0xe3d; 0xe7d; 0xebd; 0xefd;
0xf3d; 0xf74; 0x1db; 0x1db; 0xf98; 0xfcc; 0x1db; 0xff4; 0x1db; 0x1db; 0x1db; 0x1db; 0x1021; 0x1db; 0x1db; 0x1db;
0x1db; 0x1db; 0x1db; 0x1db; 0x1035; 0x1db; 0x106d; 0x10ad; 0x1db; 0x10b8; 0x1db; 0x1db; 0x1db; 0x10ee; 0xa40; 0x112e;
0x1db; 0x1db; 0x116e; 0x1db; 0x1191; 0xa40; 0xa40; 0xa40; 0xa40; 0xa40; 0xa40; 0xa40; 0xa40; 0xa40; 0xa40; 0xa40;
0xa40; 0xa40; 0xa40; 0xa40; 0xa40; 0xa40; 0xa40; 0xa40; 0xa40; 0xa40; 0xa40; 0xa40; 0xa40; 0xa40; 0xa40; 0xa40;
0xa40; 0xa40; 0xa40; 0xa40; 0xa40; 0xa40; 0xa40; 0xa40; 0xa40; 0xa40; 0xa40; 0xa40; 0xa40; 0xa40; 0xa40; 0xa40;
0xa40; 0xa40; 0xa40; 0xa40; 0xa40; 0xa40; 0xa40; 0xa40; 0xa40; 0xa40; 0xa40; 0xa40; 0xa40; 0xa40; 0xa40; 0xa40;
0xa40; 0xa40; 0xa40; 0xa40; 0xa40; 0xa40; 0xa40; 0xa40; 0xa40; 0xa40; 0xa40; 0xa40; 0xa40; 0xa40; 0xa40; 0xa40;
0xa40; 0xa40; 0xa40; 0xa40; 0xa40; 0xa40; 0xa40; 0xa40; 0xa40; 0xa40; 0xa40; 0xa40; 0xa40; 0xa40; 0xa40; 0xa40;
0xa40; 0xa40; 0xa40; 0xa40; 0xa40; 0xa40; 0xa40; 0xa40; 0xa40; 0xa40; 0xa40; 0xa40; 0xa40; 0xa40; 0xa40; 0xa40;
0xa40; 0xa40; 0xa40; 0xa40; 0xa40; 0xa40; 0xa40; 0xa40; 0xa40; 0xa40; 0xa40; 0xa40; 0xa40; 0xa40; 0xa40; 0xa40].
(** [props_index] (S/char_set/props_data.hpp:175-190). *)
Definition props_9 : list Z := [
0xa40; 0xa40; 0xa40; 0xa40; 0xa40; 0xa40; 0xa40; 0xa40; 0xa40; 0xa40; 0xa40; 0xa40; 0xa40; 0xa40; 0xa40; 0xa40;
0xa40; 0xa40; 0xa40; 0xa40; 0xa40; 0xa40; 0xa40; 0xa40; 0xa40; 0xa40; 0xa40; 0xa40; 0xa40; 0xa40; 0xa40; 0xa40;
0xa40; 0xa40; 0xa40; 0xa40; 0xa40; 0xa40; 0xa40; 0xa40; 0xa40; 0xa40; 0xa40; 0xa40; 0xa40; 0xa40; 0xa40; 0xa40;
0xa40; 0xa40; 0xa40; 0xa40; 0xa40; 0xa40; 0xa40; 0xa40; 0xa40; 0xa40; 0xa40; 0xa40; 0xa40; 0xa40; 0xa40; 0xa40;
0xa40; 0xa40; 0xa40; 0xa40; 0xa40; 0xa40; 0xa40; 0xa40; 0xa40; 0xa40; 0xa40; 0xa40; 0xa40; 0xa40; 0xa40; 0xa40;
0xa40; 0xa40; 0xa40; 0xa40; 0xa40; 0xa40; 0xa40; 0xa40; 0xa40; 0xa40; 0xa40; 0xa40; 0xa40; 0xa40; 0xa40; 0xa40;
0xa40; 0xa40; 0xa40; 0xa40; 0xa40; 0xa40; 0xa40; 0xa40; 0xa40; 0xa40; 0xa40; 0xa40; 0xa40; 0xa40; 0xa40; 0xa40;
0xa40; 0xa40; 0xa40; 0xa40; 0xa40; 0xa40; 0xa40; 0xa40; 0xa40; 0xa40; 0xa40; 0xa40; 0xa40; 0xa40; 0xa40; 0xa40;
0xa40; 0xa40; 0xa40; 0xa40; 0xa40; 0xa40; 0xa40; 0xa40; 0xa40; 0xa40; 0xa40; 0xa40; 0xa40; 0xa40; 0xa40; 0xa40;
0xa40; 0xa40; 0xa40; 0xa40; 0xa40; 0xa40; 0xa40; 0xa40; 0xa40; 0xa40; 0xa40; 0xa40; 0xa40; 0xa40; 0xa40; 0xa40;
0xa40; 0xa40; 0xa40; 0xa40; 0xa40; 0xa40; 0xa40; 0xa40; 0xa40; 0xa40; 0xa40; 0xa40; 0xa40; 0xa40; 0xa40; 0xa40;
0xa40; 0xa40; 0xa40; 0xa40; 0xa40; 0xa40; 0xa40; 0xa40; 0xa40; 0xa40; 0xa40; 0xa40; 0xa40; 0xa40; 0xa40; 0xa40;
0xa40; 0xa40; 0xa40; 0xa40; 0xa40; 0xa40; 0xa40; 0xa40; 0xa40; 0xa40; 0xa40; 0xa40; 0xa40; 0xa40; 0xa40; 0xa40;
0xa40; 0xa40; 0xa40; 0xa40; 0xa40; 0xa40; 0xa40; 0xa40; 0xa40; 0xa40; 0xa40; 0xa40; 0xa40; 0xa40; 0xa40; 0xa40;
0x11d1; 0xa40; 0xa40; 0xa40; 0xa40; 0xa40; 0xa40; 0xa40; 0xa40; 0xa40; 0xa40; 0xa40; 0xa40; 0xa40; 0xa40; 0xa40;
0xa40; 0xa40; 0xa40; 0xa40; 0xa40; 0xa40; 0xa40; 0xa40; 0xa40; 0xa40; 0xa40; 0xa40; 0xa40; 0xa40; 0xa40; 0xa40].
(** [props_index] (S/char_set/props_data.hpp:191-206). *)
Definition props_10 : list Z := [
0x700; 0x700; 0x700; 0x700; 0x700; 0x700; 0x700; 0x700; 0x700; 0x700; 0x700; 0x700; 0x700; 0x700; 0x700; 0x700;
0x700; 0x700; 0x700; 0x700; 0x700; 0x700; 0x700; 0x700; 0x700; 0x700; 0x700; 0x700; 0x700; 0x700; 0x700; 0x1211;
0x700; 0x700; 0x700; 0x700; 0x700; 0x700; 0x700; 0x700; 0x700; 0x700; 0x700; 0x700; 0x700; 0x700; 0x700; 0x700;
0x700; 0x700; 0x700; 0x700; 0x700; 0x700; 0x700; 0x700; 0x700; 0x700; 0x700; 0x700; 0x700; 0x700; 0x700; 0x1211;
0x4b5; 0x4b5; 0x4b5; 0x4b5; 0x4b5; 0x4b5; 0x4b5; 0x4b5; 0x4b5; 0x4b5; 0x4b5; 0x4b5; 0x4b5; 0x4b5; 0x4b5; 0x4b5;
0x4b5; 0x4b5; 0x4b5; 0x4b5; 0x4b5; 0x4b5; 0x4b5; 0x4b5; 0x4b5; 0x4b5; 0x4b5; 0x4b5; 0x4b5; 0x4b5; 0x4b5; 0x4b5;
0x4b5; 0x4b5; 0x4b5; 0x4b5; 0x4b5; 0x4b5; 0x4b5; 0x4b5; 0x4b5; 0x4b5; 0x4b5; 0x4b5; 0x4b5; 0x4b5; 0x4b5; 0x4b5;
0x4b5; 0x4b5; 0x4b5; 0x4b5; 0x4b5; 0x4b5; 0x4b5; 0x4b5; 0x4b5; 0x4b5; 0x4b5; 0x4b5; 0x4b5; 0x4b5; 0x4b5; 0x4b5;
0xedb; 0xee2; 0xeea; 0x4b5; 0x600; 0x600; 0x600; 0xef2; 0xf02; 0xefa; 0xf19; 0xf0a; 0xf11; 0xf21; 0xf25; 0xf29;
0x4b5; 0x4b5; 0x4b5; 0x4b5; 0x8f6; 0x600; 0xf31; 0xf39; 0x600; 0xf41; 0xf49; 0xf4d; 0xf55; 0x600; 0xf5d; 0x4b5;
0x58d; 0x597; 0xf65; 0x600; 0xf69; 0xf71; 0xf81; 0xf79; 0x600; 0xf89; 0x600; 0xf90; 0xfa0; 0xf98; 0x4b5; 0x4b5;
0x600; 0x600; 0x600; 0x600; 0x600; 0x600; 0x600; 0x600; 0x600; 0xb88; 0x902; 0xfa8; 0xfb8; 0xfb0; 0x4b5; 0x4b5;
0xfc8; 0xfc0; 0xfcb; 0xfd3; 0x916; 0xfdb; 0x4b5; 0xfe3; 0xfeb; 0xff3; 0x4b5; 0x4b5; 0x600; 0x1003; 0x100b; 0xffb;
0x101b; 0x1022; 0x1013; 0x102a; 0x1032; 0x4b5; 0x1042; 0x103a; 0x600; 0x1045; 0x104d; 0x1055; 0x105d; 0x1065; 0x4b5; 0x4b5;
0x600; 0x600; 0x106d; 0x4b5; 0x58d; 0x1075; 0x535; 0x107d; 0x600; 0x1085; 0x4b5; 0x4b5; 0x4b5; 0x4b5; 0x4b5; 0x4b5;
0x4b5; 0x4b5; 0x4b5; 0x108d; 0x600; 0x1095; 0x4b5; 0x109a; 0x10a2; 0x10aa; 0x10b1; 0xfdf; 0x10b9; 0xfdf; 0x10c1; 0xb88].
(** [props_index] (S/char_set/props_data.hpp:207-222). *)
Definition props_11 : list Z := [
0x10d1; 0x636; 0x10d9; 0x10c9; 0x98f; 0x10e1; 0x10e9; 0x10ef; 0x1107; 0x10f7; 0x10ff; 0x110b; 0x98f; 0x111b; 0x1113; 0x1123;
0x113b; 0x112b; 0x1133; 0x4b5; 0x1142; 0x114a; 0x658; 0x1152; 0x1162; 0x1168; 0x1170; 0x115a; 0x4b5; 0x4b5; 0x4b5; 0x4b5;
0x600; 0x1178; 0x1180; 0x1099; 0x600; 0x1188; 0x1190; 0x4b5; 0x4b5; 0x4b5; 0x4b5; 0x4b5; 0x600; 0x1198; 0x11a0; 0x4b5;
0x600; 0x11a8; 0x11b0; 0x11b8; 0x600; 0x11c8; 0x11c0; 0x4b5; 0x870; 0x11d0; 0x11d8; 0x4b5; 0x4b5; 0x4b5; 0x4b5; 0x4b5;
0x600; 0x11e0; 0x4b5; 0x4b5; 0x4b5; 0x58d; 0x535; 0x11e8; 0x11f8; 0x11fe; 0x11f0; 0x4b5; 0x4b5; 0x120e; 0x1212; 0x1206;
0x122a; 0x121a; 0x1222; 0x600; 0x1238; 0x1232; 0x600; 0x8f7; 0x1248; 0x4b5; 0x4b5; 0x4b5; 0x4b5; 0x4b5; 0x4b5; 0x4b5;
0x1256; 0x125b; 0x1240; 0x1250; 0x126b; 0x1263; 0x4b5; 0x4b5; 0x127a; 0x127e; 0x1272; 0x128e; 0x1286; 0x11c0; 0x4b5; 0x4b5;
0x4b5; 0x4b5; 0x4b5; 0x4b5; 0x4b5; 0x4b5; 0x4b5; 0x1292; 0x12a2; 0x12a7; 0x129a; 0x4b5; 0x4b5; 0x12af; 0x12bf; 0x12b7;
0x600; 0x600; 0x600; 0x600; 0x600; 0x600; 0x600; 0x600; 0x600; 0x600; 0x600; 0x600; 0x600; 0x600; 0x600; 0x600;
0x600; 0x600; 0x600; 0x600; 0x600; 0x600; 0x600; 0x600; 0x600; 0x600; 0x600; 0x600; 0x901; 0x4b5; 0x4b5; 0x4b5;
0x12cf; 0x12d7; 0x12df; 0x12c7; 0x600; 0x600; 0x600; 0x600; 0x600; 0x600; 0x12e7; 0x4b5; 0x4b5; 0x4b5; 0x4b5; 0x4b5;
0x4b5; 0x4b5; 0x4b5; 0x4b5; 0x4b5; 0x4b5; 0x4b5; 0x4b5; 0x4b5; 0x4b5; 0x4b5; 0x4b5; 0x4b5; 0x4b5; 0x4b5; 0x4b5;
0x4b5; 0x4b5; 0x4b5; 0x4b5; 0x4b5; 0x4b5; 0x4b5; 0x4b5; 0x4b5; 0x4b5; 0x4b5; 0x4b5; 0x4b5; 0x4b5; 0x4b5; 0x4b5;
0x4b5; 0x4b5; 0x4b5; 0x4b5; 0x4b5; 0x4b5; 0x4b5; 0x4b5; 0x4b5; 0x4b5; 0x4b5; 0x4b5; 0x4b5; 0x4b5; 0x4b5; 0x4b5;
0x4b5; 0x4b5; 0x4b5; 0x4b5; 0x4b5; 0x4b5; 0x4b5; 0xfdf; 0x600; 0x600; 0x12ef; 0x600; 0x600; 0x600; 0x600; 0x600;
0x600; 0x600; 0x600; 0x600; 0x600; 0x600; 0x600; 0x600; 0x600; 0x600; 0x600; 0x600; 0x600; 0x600; 0x600; 0x600].
(** [props_index] (S/char_set/props_data.hpp:223-238). *)
Definition props_12 : list Z := [
0x600; 0x600; 0x600; 0x600; 0x600; 0x600; 0x600; 0x600; 0x600; 0x600; 0x600; 0x600; 0x12f7; 0x12ff; 0x4b5; 0x4b5;
0x4b5; 0x4b5; 0x4b5; 0x4b5; 0x4b5; 0x4b5; 0x4b5; 0x4b5; 0x4b5; 0x4b5; 0x4b5; 0x4b5; 0x4b5; 0x4b5; 0x4b5; 0x4b5;
0x4b5; 0x4b5; 0x4b5; 0x4b5; 0x4b5; 0x4b5; 0x4b5; 0x4b5; 0x4b5; 0x4b5; 0x4b5; 0x4b5; 0x4b5; 0x4b5; 0x600; 0x600;
0x600; 0x600; 0x600; 0x600; 0x600; 0x600; 0x600; 0x600; 0x600; 0x600; 0x600; 0x600; 0x600; 0x600; 0x600; 0x600;
0x11d8; 0x4b5; 0x4b5; 0x4b5; 0x4b5; 0x4b5; 0x4b5; 0x4b5; 0x4b5; 0x4b5; 0x4b5; 0x4b5; 0x4b5; 0x4b5; 0x600; 0x600;
0x600; 0x600; 0x600; 0x600; 0x600; 0x600; 0x600; 0x600; 0x600; 0x600; 0x600; 0x600; 0x600; 0x600; 0x600; 0x8f7;
0x916; 0xda4; 0x600; 0x916; 0x1307; 0x130c; 0x600; 0x131c; 0x1324; 0x132c; 0x1314; 0x4b5; 0x4b5; 0x4b5; 0x4b5; 0x4b5;
0x4b5; 0x4b5; 0x4b5; 0x4b5; 0x4b5; 0x4b5; 0x4b5; 0x4b5; 0x4b5; 0x4b5; 0x4b5; 0x4b5; 0x4b5; 0x4b5; 0x4b5; 0x4b5;
0x58d; 0x535; 0x1334; 0x4b5; 0x4b5; 0x4b5; 0x600; 0x600; 0x133c; 0x1341; 0x1347; 0x4b5; 0x4b5; 0x134f; 0x600; 0x600;
0x600; 0x600; 0x600; 0x600; 0x600; 0x600; 0x600; 0x600; 0x600; 0x600; 0x600; 0x600; 0x600; 0x600; 0x600; 0x600;
0x600; 0x600; 0x600; 0x600; 0x600; 0x600; 0x600; 0x600; 0x600; 0x600; 0x600; 0x600; 0x600; 0x600; 0x600; 0x600;
0x600; 0x600; 0x600; 0x600; 0x600; 0x600; 0x600; 0x600; 0x600; 0x600; 0x600; 0x600; 0x600; 0x600; 0x600; 0x600;
0x600; 0x600; 0x600; 0x600; 0x600; 0x600; 0x600; 0x600; 0x600; 0x600; 0x600; 0x600; 0x600; 0x1357; 0x600; 0x600;
0x600; 0x600; 0x600; 0x600; 0x600; 0x600; 0x600; 0x600; 0x600; 0x600; 0x600; 0x600; 0x600; 0x600; 0x600; 0x600;
0x600; 0x600; 0x600; 0x600; 0x600; 0x600; 0x600; 0x600; 0x600; 0x600; 0x600; 0x600; 0x600; 0x600; 0x600; 0x600;
0x600; 0x600; 0x600; 0x600; 0x902; 0x4b5; 0x106d; 0x4b5; 0x4b5; 0x4b5; 0x4b5; 0x4b5; 0x4b5; 0x4b5; 0x4b5; 0x4b5].
(** [props_index] (S/char_set/props_data.hpp:239-254). *)
Definition props_13 : list Z := [
0x4b5; 0x4b5; 0x4b5; 0x4b5; 0x4b5; 0x4b5; 0x4b5; 0x4b5; 0x4b5; 0x4b5; 0x4b5; 0x4b5; 0x4b5; 0x4b5; 0x4b5; 0x4b5;
0x4b5; 0x4b5; 0x4b5; 0x4b5; 0x4b5; 0x4b5; 0x4b5; 0x4b5; 0x4b5; 0x4b5; 0x4b5; 0x4b5; 0x4b5; 0x4b5; 0x4b5; 0x4b5;
0x4b5; 0x4b5; 0x4b5; 0x4b5; 0x4b5; 0x4b5; 0x4b5; 0x4b5; 0x4b5; 0x4b5; 0x4b5; 0x4b5; 0x4b5; 0x4b5; 0x4b5; 0x4b5;
0x4b5; 0x4b5; 0x4b5; 0x4b5; 0x4b5; 0x4b5; 0x135d; 0x600; 0x600; 0x600; 0x600; 0x600; 0x600; 0x600; 0x600; 0x600;
0x1365; 0x136a; 0x1371; 0x600; 0x600; 0x600; 0x600; 0x600; 0x600; 0x600; 0x600; 0x600; 0x600; 0x600; 0xe10; 0x4b5;
0x4b5; 0x4b5; 0x4b5; 0x4b5; 0x4b5; 0x4b5; 0x4b5; 0x4b5; 0x4b5; 0x4b5; 0x4b5; 0x4b5; 0x4b5; 0x4b5; 0x4b5; 0x4b5;
0x4b5; 0x4b5; 0x4b5; 0x4b5; 0x4b5; 0x4b5; 0x4b5; 0x4b5; 0x4b5; 0x4b5; 0x4b5; 0x4b5; 0x4b5; 0x4b5; 0x4b5; 0x4b5;
0x4b5; 0x4b5; 0x4b5; 0x4b5; 0x4b5; 0x4b5; 0x4b5; 0x600; 0x600; 0x600; 0x1377; 0x137c; 0x1384; 0x4b5; 0x4b5; 0x4b5;
0x4b5; 0x4b5; 0x4b5; 0x4b5; 0x4b5; 0x4b5; 0x4b5; 0x4b5; 0x4b5; 0x4b5; 0x4b5; 0x4b5; 0x4b5; 0x4b5; 0x4b5; 0x4b5;
0x4b5; 0x4b5; 0x4b5; 0x4b5; 0x4b5; 0x4b5; 0x4b5; 0x4b5; 0x4b5; 0x4b5; 0x4b5; 0x4b5; 0x4b5; 0x4b5; 0x4b5; 0x4b5;
0x4b5; 0x4b5; 0x4b5; 0x4b5; 0x4b5; 0x4b5; 0x4b5; 0x4b5; 0x4b5; 0x4b5; 0x4b5; 0x4b5; 0x4b5; 0x4b5; 0x4b5; 0x4b5;
0x4b5; 0x4b5; 0x4b5; 0x4b5; 0x4b5; 0x55c; 0x1394; 0x139b; 0x934; 0x934; 0x934; 0x138c; 0x4b5; 0x934; 0x934; 0x934;
0x934; 0x934; 0x934; 0x934; 0xbb7; 0x934; 0x13a2; 0x934; 0x13a9; 0x13b1; 0x13b7; 0x934; 0xade; 0x934; 0x934; 0x13bf;
0x4b5; 0x4b5; 0x4b5; 0x13c7; 0x13c7; 0x934; 0x934; 0xadb; 0x13cf; 0x4b5; 0x4b5; 0x4b5; 0x4b5; 0x13df; 0x13e6; 0x13eb;
0x13f1; 0x13f9; 0x1401; 0x1409; 0x13e3; 0x1411; 0x1419; 0x1421; 0x1426; 0x13f8; 0x13df; 0x13e6; 0x13e2; 0x13f1; 0x142e; 0x13e0;
0x1431; 0x13e3; 0x1439; 0x1441; 0x1449; 0x1450; 0x143c; 0x1444; 0x144c; 0x1453; 0x143f; 0x145b; 0x13d7; 0x934; 0x934; 0x934].
(** [props_index] (S/char_set/props_data.hpp:255-270). *)
Definition props_14 : list Z := [
0x934; 0x934; 0x934; 0x934; 0x934; 0x934; 0x934; 0x934; 0x934; 0x934; 0x934; 0x934; 0x934; 0x55c; 0x146b; 0x55c;
0x1472; 0x1479; 0x1463; 0x4b5; 0x4b5; 0x4b5; 0x4b5; 0x4b5; 0x4b5; 0x4b5; 0x4b5; 0x4b5; 0x4b5; 0x4b5; 0x4b5; 0x4b5;
0x4b5; 0x4b5; 0x4b5; 0x4b5; 0x4b5; 0x4b5; 0x4b5; 0x4b5; 0x4b5; 0x4b5; 0x4b5; 0x4b5; 0x4b5; 0x4b5; 0x4b5; 0x4b5;
0x4b5; 0x4b5; 0x4b5; 0x4b5; 0x4b5; 0x1488; 0x1490; 0x4b5; 0x4b5; 0x4b5; 0x4b5; 0x4b5; 0x4b5; 0x1480; 0x1498; 0x9d4;
0x14a8; 0x14a0; 0x4b5; 0x4b5; 0x4b5; 0x600; 0x14b8; 0x14b0; 0x4b5; 0x4b5; 0x4b5; 0x4b5; 0x4b5; 0x4b5; 0x4b5; 0x4b5;
0x4b5; 0xfdf; 0x14c0; 0x600; 0x14c8; 0x4b5; 0x4b5; 0x4b5; 0x4b5; 0x4b5; 0x4b5; 0x4b5; 0x4b5; 0x4b5; 0x4b5; 0x4b5;
0x4b5; 0x4b5; 0x4b5; 0xfdf; 0x14d0; 0x4b5; 0x4b5; 0x4b5; 0x4b5; 0x4b5; 0x4b5; 0x4b5; 0x4b5; 0x4b5; 0x4b5; 0x4b5;
0x4b5; 0x4b5; 0x4b5; 0x4b5; 0x4b5; 0x4b5; 0x4b5; 0x4b5; 0x4b5; 0x4b5; 0x4b5; 0x4b5; 0x14d8; 0x600; 0x600; 0x600;
0x600; 0x600; 0x600; 0x14e0; 0x4b5; 0x58d; 0x14f0; 0x14e8; 0x4b5; 0x4b5; 0x4b5; 0x4b5; 0x4b5; 0x4b5; 0x4b5; 0x4b5;
0x4b5; 0x4b5; 0x4b5; 0x4b5; 0x4b5; 0x4b5; 0x4b5; 0x4b5; 0x4b5; 0x4b5; 0x4b5; 0x4b5; 0x4b5; 0x4b5; 0x4b5; 0x4b5;
0x14f8; 0x1508; 0x1500; 0x4b5; 0x4b5; 0x1518; 0x1510; 0x4b5; 0x4b5; 0x4b5; 0x4b5; 0x4b5; 0x4b5; 0x1528; 0x1530; 0x1538;
0x1540; 0x1548; 0x1550; 0x4b5; 0x1520; 0x4b5; 0x4b5; 0x4b5; 0x4b5; 0x4b5; 0x4b5; 0x4b5; 0x4b5; 0x934; 0x1558; 0x934;
0x934; 0xbaf; 0x13a0; 0x1560; 0xbb7; 0x1568; 0x934; 0x934; 0x934; 0x934; 0xbb9; 0x4b5; 0x1570; 0x1578; 0x157c; 0x1584;
0x158c; 0x4b5; 0x4b5; 0x4b5; 0x4b5; 0x934; 0x934; 0x934; 0x934; 0x934; 0x934; 0x934; 0x1594; 0x934; 0x934; 0x934;
0x934; 0x934; 0x934; 0x934; 0x934; 0x934; 0x934; 0x934; 0x934; 0x934; 0x934; 0x934; 0x934; 0x934; 0x934; 0x934;
0x934; 0x934; 0x934; 0x157d; 0x159c; 0x934; 0x934; 0x934; 0x15a4; 0x934; 0x934; 0x15ab; 0x15b3; 0x1558; 0x934; 0x15bb].
(** [props_index] (S/char_set/props_data.hpp:271-286). *)
Definition props_15 : list Z := [
0x934; 0x15c3; 0x15c8; 0x4b5; 0x4b5; 0x934; 0x934; 0x934; 0x934; 0x934; 0x934; 0x934; 0x934; 0x934; 0x934; 0xbaf;
0x15d0; 0x15d9; 0x15dd; 0x15e5; 0x15d5; 0x934; 0x934; 0x934; 0x934; 0x15ed; 0x934; 0xade; 0x11bc; 0x4b5; 0x4b5; 0x4b5;
0x4b5; 0x4b5; 0x4b5; 0x4b5; 0x4b5; 0x4b5; 0x4b5; 0x4b5; 0x4b5; 0x4b5; 0x4b5; 0x4b5; 0x4b5; 0x4b5; 0x4b5; 0x4b5;
0x4b5; 0x4b5; 0x4b5; 0x4b5; 0x4b5; 0x4b5; 0x4b5; 0x4b5; 0x4b5; 0x4b5; 0x4b5; 0x4b5; 0x4b5; 0x15f5; 0x600; 0x600;
0x15fc; 0x600; 0x600; 0x600; 0x1604; 0x600; 0x160c; 0x600; 0x600; 0x600; 0x600; 0x600; 0x600; 0x600; 0x600; 0x600;
0x600; 0x600; 0x600; 0x600; 0x600; 0x600; 0x600; 0x600; 0x600; 0x600; 0x600; 0x600; 0x600; 0x600; 0x600; 0x600;
0x600; 0x600; 0x600; 0x600; 0x600; 0x600; 0x600; 0x600; 0x600; 0x600; 0x600; 0x600; 0x600; 0x600; 0x600; 0x600;
0x600; 0x600; 0x600; 0x600; 0x600; 0x600; 0x600; 0x600; 0x600; 0x600; 0x600; 0x600; 0x600; 0xc90; 0x600; 0x600;
0x1614; 0x600; 0x600; 0x600; 0x600; 0x600; 0x600; 0x600; 0x600; 0x600; 0x600; 0x161c; 0x1624; 0x600; 0x600; 0x600;
0x600; 0x600; 0x600; 0x600; 0x600; 0x600; 0x600; 0x600; 0x600; 0x600; 0x600; 0x600; 0x600; 0x600; 0x600; 0x600;
0x600; 0x600; 0x600; 0x600; 0x600; 0x600; 0x600; 0x600; 0x600; 0x600; 0x600; 0x600; 0x600; 0x600; 0x600; 0x600;
0x600; 0x600; 0x600; 0x600; 0xccf; 0x600; 0x600; 0x600; 0x600; 0x600; 0x600; 0x600; 0x600; 0x600; 0x600; 0x600;
0x600; 0x600; 0x600; 0x600; 0x600; 0x600; 0x600; 0x600; 0x600; 0x600; 0x600; 0x600; 0x600; 0x600; 0x600; 0x600;
0x600; 0x600; 0x600; 0x600; 0x600; 0x600; 0x600; 0x600; 0x162b; 0x600; 0x600; 0x600; 0x600; 0x600; 0x600; 0x600;
0x600; 0x600; 0x600; 0x600; 0x600; 0x600; 0x600; 0x600; 0x600; 0x600; 0x600; 0x600; 0x600; 0x600; 0x600; 0x600;
0x600; 0x600; 0x600; 0x600; 0x600; 0x600; 0x600; 0x600; 0x600; 0x600; 0x600; 0x600; 0x600; 0x600; 0x600; 0x600].
(** [props_index] (S/char_set/props_data.hpp:287-302). *)
Definition props_16 : list Z := [
0x600; 0x600; 0x600; 0x600; 0x600; 0x600; 0x600; 0x600; 0x600; 0x600; 0x600; 0x600; 0x1632; 0x600; 0x600; 0x600;
0x600; 0x600; 0x600; 0x600; 0x600; 0x600; 0x600; 0x600; 0x600; 0x600; 0x600; 0x600; 0x600; 0x600; 0x600; 0x600;
0x600; 0x600; 0x600; 0x600; 0x600; 0x600; 0x600; 0x600; 0x600; 0x600; 0x600; 0x600; 0x600; 0x600; 0x600; 0x600;
0x600; 0x600; 0x600; 0x600; 0x1639; 0x600; 0x600; 0x600; 0x600; 0x600; 0x600; 0x600; 0x600; 0x600; 0x600; 0x600;
0x600; 0x600; 0x600; 0x600; 0x600; 0x600; 0x600; 0x600; 0x600; 0x600; 0x600; 0x600; 0x600; 0x600; 0x600; 0x600;
0x600; 0x600; 0x600; 0x600; 0x600; 0x600; 0x600; 0x600; 0x600; 0x600; 0x600; 0x600; 0x600; 0x600; 0x600; 0x600;
0x600; 0x600; 0x600; 0x600; 0x600; 0x600; 0x600; 0x600; 0x600; 0x600; 0x600; 0x600; 0x4b5; 0x600; 0x600; 0x600;
0x600; 0x600; 0x600; 0x600; 0x600; 0x600; 0x600; 0x600; 0x600; 0x600; 0x600; 0x600; 0x600; 0x600; 0x600; 0x600;
0x600; 0x600; 0x600; 0x600; 0x600; 0x600; 0x600; 0x600; 0x600; 0x600; 0x600; 0x600; 0x600; 0x600; 0x600; 0x600;
0x600; 0x600; 0x600; 0x600; 0x600; 0x600; 0x600; 0x600; 0x600; 0x600; 0x600; 0x600; 0x600; 0x600; 0x600; 0x600;
0x600; 0x600; 0x600; 0x600; 0x600; 0x600; 0x901; 0x600; 0x600; 0x600; 0x600; 0x600; 0x600; 0xf69; 0x600; 0x600;
0x600; 0x600; 0x600; 0x600; 0x600; 0x600; 0x600; 0x600; 0x600; 0x600; 0x600; 0x600; 0x600; 0x600; 0x600; 0x600;
0x600; 0x600; 0x600; 0x600; 0x600; 0x600; 0x600; 0x600; 0x600; 0x600; 0x600; 0x600; 0x600; 0x600; 0x600; 0x600;
0x600; 0x600; 0x600; 0x600; 0x600; 0x600; 0x600; 0x600; 0x600; 0x600; 0x600; 0x600; 0x600; 0x600; 0x600; 0x600;
0x600; 0x600; 0x600; 0x600; 0x600; 0x600; 0x600; 0x600; 0x600; 0x600; 0x600; 0x600; 0x600; 0x1641; 0x600; 0x600;
0x600; 0x600; 0x600; 0x600; 0x600; 0x600; 0x600; 0x600; 0x600; 0x600; 0x600; 0x600; 0x600; 0x600; 0x600; 0x600].
(** [props_index] (S/char_set/props_data.hpp:303-318). *)
Definition props_17 : list Z := [
0x600; 0x600; 0x600; 0x600; 0x600; 0x600; 0x600; 0x600; 0x600; 0x600; 0x600; 0x600; 0x600; 0x1649; 0x4b5; 0x4b5;
0x4b5; 0x4b5; 0x4b5; 0x4b5; 0x4b5; 0x4b5; 0x4b5; 0x4b5; 0x4b5; 0x4b5; 0x4b5; 0x4b5; 0x4b5; 0x4b5; 0x4b5; 0x4b5;
0x4b5; 0x4b5; 0x4b5; 0x4b5; 0x4b5; 0x4b5; 0x4b5; 0x4b5; 0x4b5; 0x4b5; 0x4b5; 0x4b5; 0x4b5; 0x4b5; 0x600; 0x600;
0x600; 0x600; 0x1651; 0x600; 0x600; 0x600; 0x600; 0x600; 0x600; 0x600; 0x600; 0x600; 0x600; 0x600; 0xf69; 0x4b5;
0x4b5; 0x4b5; 0x4b5; 0x4b5; 0x4b5; 0x4b5; 0x4b5; 0x4b5; 0x4b5; 0x4b5; 0x4b5; 0x4b5; 0x4b5; 0x4b5; 0x4b5; 0x4b5;
0x4b5; 0x4b5; 0x4b5; 0x4b5; 0x4b5; 0x4b5; 0x4b5; 0x4b5; 0x4b5; 0x4b5; 0x4b5; 0x4b5; 0x4b5; 0x4b5; 0x4b5; 0x4b5;
0x4b5; 0x4b5; 0x4b5; 0x4b5; 0x4b5; 0x4b5; 0x4b5; 0x4b5; 0x4b5; 0x4b5; 0x4b5; 0x4b5; 0x4b5; 0x4b5; 0x600; 0x600;
0x600; 0x600; 0x600; 0x600; 0x600; 0x600; 0x600; 0x600; 0x600; 0x600; 0x600; 0x600; 0x600; 0x600; 0x600; 0x600;
0x600; 0x600; 0x600; 0x600; 0x600; 0x600; 0x600; 0x600; 0x67d; 0x600; 0x600; 0x600; 0x600; 0x600; 0x600; 0x600;
0x600; 0x600; 0x600; 0x600; 0x600; 0x600; 0x600; 0x600; 0x600; 0x600; 0x600; 0x600; 0x600; 0x600; 0x600; 0x600;
0x600; 0x600; 0x600; 0x600; 0x600; 0x600; 0x600; 0x600; 0x600; 0x600; 0x600; 0x600; 0x600; 0x600; 0x1314; 0x4b5;
0x4b5; 0x4b5; 0x4b5; 0x4b5; 0x4b5; 0x4b5; 0x4b5; 0x4b5; 0x4b5; 0x4b5; 0x4b5; 0x4b5; 0x4b5; 0x4b5; 0x4b5; 0x4b5;
0x4b5; 0x4b5; 0x4b5; 0x4b5; 0x4b5; 0x4b5; 0x4b5; 0x4b5; 0x4b5; 0x4b5; 0x4b5; 0x4b5; 0x4b5; 0x4b5; 0x4b5; 0x4b5;
0x4b5; 0x1661; 0x1659; 0x1659; 0x1659; 0x4b5; 0x4b5; 0x4b5; 0x4b5; 0x55c; 0x55c; 0x55c; 0x55c; 0x55c; 0x55c; 0x55c;
0x1669; 0x4b5; 0x4b5; 0x4b5; 0x4b5; 0x4b5; 0x4b5; 0x4b5; 0x4b5; 0x4b5; 0x4b5; 0x4b5; 0x4b5; 0x4b5; 0x4b5; 0x4b5;
0x4b5; 0x4b5; 0x4b5; 0x4b5; 0x4b5; 0x4b5; 0x4b5; 0x4b5; 0x4b5; 0x4b5; 0x4b5; 0x4b5; 0x4b5; 0x4b5; 0x4b5; 0x4b5].
(** [props_index] (S/char_set/props_data.hpp:319-334). *)
Definition props_18 : list Z := [
0x4b5; 0x4b5; 0x4b5; 0x4b5; 0x4b5; 0x4b5; 0x4b5; 0x4b5; 0x4b5; 0x4b5; 0x4b5; 0x4b5; 0x4b5; 0x4b5; 0x4b5; 0x4b5;
0x4b5; 0xe28; 0xe28; 0xe28; 0xe28; 0xe28; 0xe28; 0xe28; 0xe28; 0xe28; 0xe28; 0xe28; 0xe28; 0xe28; 0xe28; 0xe28;
0xe28; 0xe28; 0xe28; 0xe28; 0xe28; 0xe28; 0xe28; 0xe28; 0xe28; 0xe28; 0xe28; 0xe28; 0xe28; 0xe28; 0xe28; 0xe28;
0xe28; 0xe28; 0xe28; 0xe28; 0xe28; 0xe28; 0xe28; 0xe28; 0xe28; 0xe28; 0xe28; 0xe28; 0xe28; 0xe28; 0xe28; 0xe28;
0xe28; 0xe28; 0xe28; 0xe28; 0xe28; 0xe28; 0xe28; 0xe28; 0xe28; 0xe28; 0xe28; 0xe28; 0xe28; 0xe28; 0xe28; 0xe28;
0x1671; 0x494; 0x494; 0x494; 0xf; 0xf; 0xf; 0xf; 0xf; 0xf; 0xf; 0xf; 0xf; 0xf; 0xf; 0xf;
0xf; 0xf; 0xf; 0xf; 0xf; 0xf; 0xf; 0xf; 0xf; 0xf; 0xf; 0xf; 0xf; 0xf; 0xf; 0xf;
0xf; 0xf; 0xf; 0xf; 0xc; 0x17; 0x17; 0x17; 0x19; 0x17; 0x17; 0x17; 0x14; 0x15; 0x17; 0x18;
0x17; 0x13; 0x17; 0x17; 0x49; 0x89; 0xc9; 0x109; 0x149; 0x189; 0x1c9; 0x209; 0x249; 0x289; 0x17; 0x17;
0x18; 0x18; 0x18; 0x17; 0x17; 1; 1; 1; 1; 1; 1; 1; 1; 1; 1; 1;
1; 1; 1; 1; 1; 1; 1; 1; 1; 1; 1; 1; 1; 1; 1; 0x14;
0x17; 0x15; 0x1a; 0x16; 0x1a; 2; 2; 2; 2; 2; 2; 2; 2; 2; 2; 2;
2; 2; 2; 2; 2; 2; 2; 2; 2; 2; 2; 2; 2; 2; 2; 0x14;
0x18; 0x15; 0x18; 0xf; 0; 0; 0; 0; 0; 0; 0; 0; 0; 0; 0; 0;
0; 0; 0; 0; 0; 0; 0; 0; 0; 0; 0; 0; 0; 0; 0; 0;
0; 0; 0; 0; 0; 0; 0; 0; 0; 0; 0; 0; 0; 0; 0; 0].
(** [props_index] (S/char_set/props_data.hpp:335-350). *)
Definition props_19 : list Z := [
0; 0; 0; 0; 0; 0; 0; 0; 0; 0; 0; 0; 0; 0; 0; 0;
0; 0; 0; 0; 0xf; 0xf; 0xf; 0xf; 0xf; 0xf; 0xf; 0xf; 0xf; 0xf; 0xf; 0xf;
0xf; 0xf; 0xf; 0xf; 0xf; 0xf; 0xf; 0xf; 0xf; 0xf; 0xf; 0xf; 0xf; 0xf; 0xf; 0xf;
0xf; 0xf; 0xf; 0xf; 0xc; 0x17; 0x19; 0x19; 0x19; 0x19; 0x1b; 0x17; 0x1a; 0x1b; 5; 0x1c;
0x18; 0x10; 0x1b; 0x1a; 0x1b; 0x18; 0x34b; 0x38b; 0x1a; 2; 0x17; 0x17; 0x1a; 0x30b; 5; 0x1d;
0x34cb; 0x344b; 0x3ccb; 0x17; 1; 1; 1; 1; 1; 1; 1; 1; 1; 1; 1; 1;
1; 1; 1; 1; 1; 1; 1; 1; 1; 1; 1; 0x18; 1; 1; 1; 1;
1; 1; 1; 2; 2; 2; 2; 2; 2; 2; 2; 2; 2; 2; 2; 2;
2; 2; 2; 2; 2; 2; 2; 2; 2; 2; 2; 0x18; 2; 2; 2; 2;
2; 2; 2; 2; 1; 2; 1; 2; 1; 2; 1; 2; 1; 2; 1; 2;
1; 2; 1; 2; 1; 2; 1; 2; 1; 2; 1; 2; 1; 2; 1; 2;
1; 2; 1; 2; 1; 2; 1; 2; 1; 2; 1; 2; 1; 2; 1; 2;
1; 2; 1; 2; 1; 2; 1; 2; 1; 2; 1; 2; 2; 1; 2; 1;
2; 1; 2; 1; 2; 2; 1; 2; 1; 2; 1; 2; 1; 2; 1; 2;
1; 2; 1; 2; 1; 2; 1; 2; 1; 2; 1; 2; 1; 2; 1; 2;
1; 2; 1; 2; 1; 2; 1; 2; 1; 2; 1; 2; 1; 2; 1; 2].
(** [props_index] (S/char_set/props_data.hpp:351-366). *)
Definition props_20 : list Z := [
1; 2; 1; 2; 1; 1; 2; 1; 2; 1; 2; 2; 2; 1; 1; 2;
1; 2; 1; 1; 2; 1; 1; 1; 2; 2; 1; 1; 1; 1; 2; 1;
1; 2; 1; 1; 1; 2; 2; 2; 1; 1; 2; 1; 1; 2; 1; 2;
1; 2; 1; 1; 2; 1; 2; 2; 1; 2; 1; 1; 2; 1; 1; 1;
2; 1; 2; 1; 1; 2; 2; 5; 1; 2; 2; 2; 5; 5; 5; 5;
1; 3; 2; 1; 3; 2; 1; 3; 2; 1; 2; 1; 2; 1; 2; 1;
2; 1; 2; 1; 2; 1; 2; 1; 2; 2; 1; 2; 1; 2; 1; 2;
1; 2; 1; 2; 1; 2; 1; 2; 1; 2; 1; 2; 2; 1; 3; 2;
1; 2; 1; 1; 1; 2; 1; 2; 1; 2; 1; 2; 1; 2; 1; 2;
1; 2; 1; 2; 1; 2; 1; 2; 1; 2; 1; 2; 1; 2; 1; 2;
1; 2; 1; 2; 1; 2; 1; 2; 1; 2; 1; 2; 1; 2; 1; 2;
1; 2; 1; 2; 1; 2; 1; 2; 2; 2; 2; 2; 2; 2; 1; 1;
2; 1; 1; 2; 2; 1; 2; 1; 1; 1; 1; 2; 1; 2; 1; 2;
1; 2; 1; 2; 2; 2; 2; 2; 2; 2; 2; 2; 2; 2; 2; 2;
2; 2; 2; 2; 2; 2; 2; 2; 2; 2; 2; 2; 2; 2; 2; 2;
2; 2; 2; 2; 2; 2; 2; 2; 2; 2; 2; 2; 2; 2; 2; 2].
(** [props_index] (S/char_set/props_data.hpp:367-382). *)
Definition props_21 : list Z := [
2; 2; 2; 2; 5; 2; 2; 2; 2; 2; 2; 2; 2; 2; 2; 2;
2; 2; 2; 2; 2; 2; 2; 2; 2; 2; 2; 2; 2; 2; 2; 2;
4; 4; 4; 4; 4; 4; 4; 4; 4; 4; 4; 4; 4; 4; 4; 4;
4; 4; 0x1a; 0x1a; 0x1a; 0x1a; 4; 4; 4; 4; 4; 4; 4; 4; 4; 4;
4; 4; 0x1a; 0x1a; 0x1a; 0x1a; 0x1a; 0x1a; 0x1a; 0x1a; 0x1a; 0x1a; 0x1a; 0x1a; 0x1a; 0x1a;
4; 4; 4; 4; 4; 0x1a; 0x1a; 0x1a; 0x1a; 0x1a; 0x1a; 0x1a; 4; 0x1a; 4; 0x1a;
0x1a; 0x1a; 0x1a; 0x1a; 0x1a; 0x1a; 0x1a; 0x1a; 0x1a; 0x1a; 0x1a; 0x1a; 0x1a; 0x1a; 0x1a; 0x1a;
6; 6; 6; 6; 6; 6; 6; 6; 6; 6; 6; 6; 6; 6; 6; 6;
6; 6; 6; 6; 6; 6; 6; 6; 6; 6; 6; 6; 6; 6; 6; 6;
6; 6; 6; 6; 6; 6; 6; 6; 6; 6; 6; 6; 6; 6; 6; 6;
6; 6; 6; 6; 6; 6; 6; 6; 6; 6; 6; 6; 6; 6; 6; 6;
1; 2; 1; 2; 4; 0x1a; 1; 2; 0; 0; 4; 2; 2; 2; 0x17; 1;
0; 0; 0; 0; 0x1a; 0x1a; 1; 0x17; 1; 1; 1; 0; 1; 0; 1; 1;
2; 1; 1; 1; 1; 1; 1; 1; 1; 1; 1; 1; 1; 1; 1; 1;
1; 1; 0; 1; 1; 1; 1; 1; 1; 1; 1; 1; 2; 2; 2; 2;
2; 2; 2; 2; 2; 2; 2; 2; 2; 2; 2; 2; 2; 2; 2; 2].
(** [props_index] (S/char_set/props_data.hpp:383-398). *)
Definition props_22 : list Z := [
2; 2; 2; 1; 2; 2; 1; 1; 1; 2; 2; 2; 1; 2; 1; 2;
1; 2; 1; 2; 1; 2; 1; 2; 1; 2; 1; 2; 1; 2; 1; 2;
1; 2; 1; 2; 2; 2; 2; 2; 1; 2; 0x18; 1; 2; 1; 1; 2;
2; 1; 1; 1; 1; 1; 1; 1; 1; 1; 1; 1; 1; 1; 1; 1;
1; 1; 1; 1; 1; 1; 1; 1; 1; 1; 1; 1; 1; 1; 1; 1;
1; 1; 1; 1; 1; 1; 1; 1; 1; 1; 1; 1; 1; 1; 1; 1;
1; 1; 1; 1; 2; 2; 2; 2; 2; 2; 2; 2; 2; 2; 2; 2;
2; 2; 2; 2; 2; 2; 2; 2; 2; 2; 2; 2; 2; 2; 2; 2;
2; 2; 2; 2; 1; 2; 1; 2; 1; 2; 1; 2; 1; 2; 1; 2;
1; 2; 1; 2; 1; 2; 1; 2; 1; 2; 1; 2; 1; 2; 1; 2;
1; 2; 1; 2; 1; 2; 0x1b; 6; 6; 6; 6; 6; 7; 7; 1; 2;
1; 2; 1; 2; 1; 2; 1; 2; 1; 2; 1; 2; 1; 2; 1; 2;
1; 2; 1; 2; 1; 2; 1; 2; 1; 2; 1; 2; 1; 2; 1; 2;
1; 2; 1; 2; 1; 2; 1; 2; 1; 2; 1; 2; 1; 2; 1; 2;
1; 2; 1; 2; 1; 1; 2; 1; 2; 1; 2; 1; 2; 1; 2; 1;
2; 1; 2; 2; 1; 2; 1; 2; 1; 2; 1; 2; 1; 2; 1; 2].
(** [props_index] (S/char_set/props_data.hpp:399-414). *)
Definition props_23 : list Z := [
1; 2; 1; 2; 1; 2; 1; 2; 1; 2; 1; 2; 1; 2; 1; 2;
1; 2; 1; 2; 1; 2; 1; 2; 1; 2; 1; 2; 1; 2; 1; 2;
1; 2; 1; 2; 0; 1; 1; 1; 1; 1; 1; 1; 1; 1; 1; 1;
1; 1; 1; 1; 1; 1; 1; 1; 1; 1; 1; 1; 1; 1; 1; 0;
0; 4; 0x17; 0x17; 0x17; 0x17; 0x17; 0x17; 2; 2; 2; 2; 2; 2; 2; 2;
2; 2; 2; 2; 2; 2; 2; 2; 2; 2; 2; 2; 2; 2; 2; 2;
2; 2; 2; 2; 2; 2; 2; 2; 2; 0x17; 0x13; 0; 0; 0x1b; 0x1b; 0x19;
0; 6; 6; 6; 6; 6; 6; 6; 6; 6; 6; 6; 6; 6; 6; 6;
6; 6; 6; 6; 6; 6; 6; 6; 6; 6; 6; 6; 6; 6; 6; 6;
6; 6; 6; 6; 6; 6; 6; 6; 6; 6; 6; 6; 6; 6; 0x13; 6;
0x17; 6; 6; 0x17; 6; 6; 0x17; 6; 0; 0; 0; 0; 0; 0; 0; 0;
5; 5; 5; 5; 5; 5; 5; 5; 5; 5; 5; 5; 5; 5; 5; 5;
5; 5; 5; 5; 5; 5; 5; 5; 5; 5; 5; 0; 0; 0; 0; 5;
5; 5; 5; 0x17; 0x17; 0; 0; 0; 0; 0; 0; 0; 0; 0; 0; 0;
0x10; 0x10; 0x10; 0x10; 0x10; 0x10; 0x18; 0x18; 0x18; 0x17; 0x17; 0x19; 0x17; 0x17; 0x1b; 0x1b;
6; 6; 6; 6; 6; 6; 6; 6; 6; 6; 6; 0x17; 0x10; 0x17; 0x17; 0x17].
(** [props_index] (S/char_set/props_data.hpp:415-430). *)
Definition props_24 : list Z := [
5; 5; 5; 5; 5; 5; 5; 5; 5; 5; 5; 5; 5; 5; 5; 5;
5; 5; 5; 5; 5; 5; 5; 5; 5; 5; 5; 5; 5; 5; 5; 5;
4; 5; 5; 5; 5; 5; 5; 5; 5; 5; 5; 6; 6; 6; 6; 6;
6; 6; 6; 6; 6; 6; 6; 6; 6; 6; 6; 6; 6; 6; 6; 6;
0x49; 0x89; 0xc9; 0x109; 0x149; 0x189; 0x1c9; 0x209; 0x249; 0x289; 0x17; 0x17; 0x17; 0x17; 5; 5;
6; 5; 5; 5; 5; 5; 5; 5; 5; 5; 5; 5; 5; 5; 5; 5;
5; 5; 5; 5; 5; 5; 5; 5; 5; 5; 5; 5; 5; 5; 5; 5;
5; 5; 5; 5; 5; 5; 5; 5; 5; 5; 5; 5; 5; 5; 5; 5;
5; 5; 5; 5; 5; 5; 5; 5; 5; 5; 5; 5; 5; 5; 5; 5;
5; 5; 5; 5; 0x17; 5; 6; 6; 6; 6; 6; 6; 6; 0x10; 0x1b; 6;
6; 6; 6; 6; 6; 4; 4; 6; 6; 0x1b; 6; 6; 6; 6; 5; 5;
0x49; 0x89; 0xc9; 0x109; 0x149; 0x189; 0x1c9; 0x209; 0x249; 0x289; 5; 5; 5; 0x1b; 0x1b; 5;
0x17; 0x17; 0x17; 0x17; 0x17; 0x17; 0x17; 0x17; 0x17; 0x17; 0x17; 0x17; 0x17; 0x17; 0; 0x10;
5; 6; 5; 5; 5; 5; 5; 5; 5; 5; 5; 5; 5; 5; 5; 5;
5; 5; 5; 5; 5; 5; 5; 5; 5; 5; 5; 5; 5; 5; 5; 5;
6; 6; 6; 6; 6; 6; 6; 6; 6; 6; 6; 6; 6; 6; 6; 6].
(** [props_index] (S/char_set/props_data.hpp:431-446). *)
Definition props_25 : list Z := [
6; 6; 6; 0; 0; 5; 5; 5; 5; 5; 5; 5; 5; 5; 5; 5;
5; 5; 5; 5; 5; 5; 5; 5; 5; 5; 5; 5; 5; 5; 5; 5;
5; 5; 5; 5; 5; 5; 5; 5; 5; 5; 5; 5; 5; 5; 5; 5;
5; 5; 5; 5; 5; 5; 5; 5; 5; 5; 6; 6; 6; 6; 6; 6;
6; 6; 6; 6; 6; 5; 0; 0; 0; 0; 0; 0; 0; 0; 0; 0;
0; 0; 0; 0; 0x49; 0x89; 0xc9; 0x109; 0x149; 0x189; 0x1c9; 0x209; 0x249; 0x289; 5; 5;
5; 5; 5; 5; 5; 5; 5; 5; 5; 5; 5; 5; 5; 5; 5; 5;
5; 5; 5; 5; 5; 5; 5; 5; 5; 5; 5; 5; 5; 5; 5; 6;
6; 6; 6; 6; 6; 6; 6; 6; 4; 4; 0x1b; 0x17; 0x17; 0x17; 4; 0;
0; 6; 0x19; 0x19; 6; 6; 6; 6; 4; 6; 6; 6; 4; 6; 6; 6;
6; 6; 0; 0; 0x17; 0x17; 0x17; 0x17; 0x17; 0x17; 0x17; 0x17; 0x17; 0x17; 0x17; 0x17;
0x17; 0x17; 0x17; 0; 5; 5; 5; 5; 5; 5; 5; 5; 5; 5; 5; 5;
5; 5; 5; 5; 5; 5; 5; 5; 5; 5; 6; 6; 6; 6; 4; 6;
6; 6; 6; 6; 5; 5; 5; 5; 5; 5; 5; 5; 5; 5; 5; 5;
5; 5; 5; 5; 5; 5; 5; 5; 5; 5; 5; 5; 5; 6; 6; 6;
0; 0; 0x17; 0; 5; 5; 5; 5; 5; 5; 5; 5; 5; 5; 5; 0].
(** [props_index] (S/char_set/props_data.hpp:447-462). *)
Definition props_26 : list Z := [
0; 0; 0; 0; 5; 5; 5; 5; 5; 5; 5; 5; 5; 5; 5; 5;
5; 5; 5; 5; 0x1a; 5; 5; 5; 5; 5; 5; 0; 0x10; 0x10; 0; 0;
0; 0; 0; 0; 6; 6; 6; 6; 6; 6; 6; 6; 6; 6; 0x10; 6;
6; 6; 6; 6; 6; 6; 6; 6; 6; 6; 6; 6; 6; 6; 6; 6;
6; 6; 6; 6; 6; 6; 6; 6; 6; 6; 6; 6; 5; 5; 5; 5;
5; 5; 5; 5; 5; 4; 6; 6; 6; 6; 6; 6; 6; 6; 6; 6;
6; 6; 6; 6; 6; 6; 6; 6; 6; 6; 6; 6; 5; 5; 6; 6;
0x17; 0x17; 0x49; 0x89; 0xc9; 0x109; 0x149; 0x189; 0x1c9; 0x209; 0x249; 0x289; 0x17; 4; 5; 5;
5; 5; 5; 5; 5; 5; 5; 5; 5; 5; 5; 5; 6; 6; 6; 8;
5; 5; 5; 5; 5; 5; 5; 5; 5; 5; 5; 5; 5; 5; 5; 5;
5; 5; 5; 5; 5; 5; 5; 5; 5; 5; 5; 5; 5; 5; 6; 8;
6; 5; 8; 8; 8; 6; 6; 6; 6; 6; 6; 6; 6; 8; 8; 8;
8; 6; 8; 8; 5; 6; 6; 6; 6; 6; 6; 6; 5; 5; 5; 5;
5; 5; 5; 5; 5; 5; 6; 6; 0; 0; 0x49; 0x89; 0xc9; 0x109; 0x149; 0x189;
0x1c9; 0x209; 0x249; 0x289; 5; 5; 0x19; 0x19; 0x37cb; 0x35cb; 0x3fcb; 0x34cb; 0x3ccb; 0x94b; 0x1b; 0x19;
5; 0x17; 6; 0; 5; 6; 8; 8; 0; 5; 5; 5; 5; 5; 5; 5].
(** [props_index] (S/char_set/props_data.hpp:463-478). *)
Definition props_27 : list Z := [
5; 0; 0; 5; 5; 0; 0; 5; 5; 5; 5; 5; 5; 5; 5; 5;
5; 5; 5; 5; 5; 0; 5; 5; 5; 5; 5; 5; 5; 0; 5; 0;
0; 0; 5; 5; 5; 5; 0; 0; 6; 5; 8; 8; 8; 6; 6; 6;
6; 0; 0; 8; 8; 0; 0; 8; 8; 6; 5; 0; 0; 0; 0; 0;
0; 0; 0; 8; 0; 0; 0; 0; 5; 5; 0; 5; 0; 0; 0; 0;
0; 0; 0x49; 0x89; 0xc9; 0x109; 0x149; 0x189; 0x1c9; 0x209; 0x249; 0x289; 6; 6; 5; 5;
5; 6; 0x17; 0; 0; 0; 0; 0; 0; 0; 0; 0; 0; 6; 6; 8;
0; 5; 5; 5; 5; 5; 5; 0; 0; 0; 0; 5; 5; 0; 0; 5;
5; 5; 5; 5; 5; 5; 5; 5; 5; 5; 5; 5; 5; 0; 5; 5;
5; 5; 5; 5; 5; 0; 5; 5; 0; 5; 5; 0; 5; 5; 0; 0;
6; 0; 8; 8; 8; 6; 6; 0; 0; 0; 0; 6; 6; 0; 0; 6;
6; 6; 0; 0; 0; 6; 0; 0; 0; 0; 0; 0; 0; 5; 5; 5;
5; 0; 5; 0; 5; 5; 6; 6; 0; 0; 0x49; 0x89; 0xc9; 0x109; 0x149; 0x189;
0x1c9; 0x209; 0x249; 0x289; 0x17; 0x19; 0; 0; 0; 0; 0; 0; 0; 5; 6; 6;
6; 6; 6; 6; 0; 6; 6; 8; 0; 5; 5; 5; 5; 5; 5; 5;
5; 5; 0; 5; 5; 5; 0; 5; 5; 5; 5; 5; 5; 5; 5; 5].
(** [props_index] (S/char_set/props_data.hpp:479-494). *)
Definition props_28 : list Z := [
5; 5; 5; 5; 5; 0; 5; 5; 5; 5; 5; 5; 5; 0; 5; 5;
0; 5; 5; 5; 5; 5; 0; 0; 6; 5; 8; 8; 8; 6; 6; 6;
6; 6; 0; 6; 6; 8; 0; 8; 8; 6; 0; 0; 5; 0; 0; 0;
0; 0; 0; 0; 0; 0; 0; 0; 0; 0; 0; 0; 5; 5; 6; 6;
0; 0; 0x49; 0x89; 0xc9; 0x109; 0x149; 0x189; 0x1c9; 0x209; 0x249; 0x289; 0x1b; 5; 0x34cb; 0x344b;
0x3ccb; 0x37cb; 0x35cb; 0x3fcb; 0; 0; 0; 0; 0; 0; 0; 0; 0; 6; 8; 8;
0; 5; 5; 5; 5; 5; 5; 5; 5; 0; 0; 5; 5; 0; 0; 5;
5; 5; 5; 5; 5; 5; 5; 5; 5; 5; 5; 5; 5; 0; 5; 5;
5; 5; 5; 5; 5; 0; 5; 5; 0; 5; 5; 5; 5; 5; 0; 0;
6; 5; 8; 6; 8; 6; 6; 6; 6; 0; 0; 8; 8; 0; 0; 8;
8; 6; 0; 0; 0; 0; 0; 0; 0; 6; 6; 8; 0; 0; 0; 0;
5; 5; 0; 5; 0; 0; 0; 0; 0; 0; 0x49; 0x89; 0xc9; 0x109; 0x149; 0x189;
0x1c9; 0x209; 0x249; 0x289; 0x7cb; 0x1e4b; 0x784b; 0x1b; 0x1b; 0x1b; 0x1b; 0x1b; 0x1b; 0x19; 0x1b; 0;
0; 0; 0; 0; 0; 0; 6; 5; 0; 5; 5; 5; 5; 5; 5; 0;
0; 0; 5; 5; 5; 0; 5; 5; 5; 5; 0; 0; 0; 5; 5; 0;
5; 0; 5; 5; 0; 0; 0; 5; 5; 0; 0; 0; 5; 5; 5; 0].
(** [props_index] (S/char_set/props_data.hpp:495-510). *)
Definition props_29 : list Z := [
0; 0; 5; 5; 5; 5; 5; 5; 5; 5; 5; 5; 5; 5; 0; 0;
0; 0; 8; 8; 6; 8; 8; 0; 0; 0; 8; 8; 8; 0; 8; 8;
8; 6; 0; 0; 5; 0; 0; 0; 0; 0; 0; 8; 0; 0; 0; 0;
0; 0; 0; 0; 5; 5; 6; 6; 0; 0; 0x49; 0x89; 0xc9; 0x109; 0x149; 0x189;
0x1c9; 0x209; 0x249; 0x289; 0; 0; 0; 0; 0; 0; 0; 0x17; 0x54b; 0x58b; 0x5cb; 0x60b;
0x58b; 0x5cb; 0x60b; 0x1b; 6; 8; 8; 8; 6; 5; 5; 5; 5; 5; 5; 5;
5; 0; 5; 5; 5; 0; 5; 5; 5; 5; 5; 5; 5; 5; 5; 5;
5; 5; 5; 5; 5; 0; 5; 5; 5; 5; 5; 5; 5; 5; 5; 5;
5; 5; 5; 5; 5; 5; 0; 0; 6; 5; 6; 6; 6; 8; 8; 8;
8; 0; 6; 6; 6; 0; 6; 6; 6; 6; 0; 0; 0; 0; 0; 0;
0; 6; 6; 0; 5; 5; 5; 0; 0; 5; 0; 0; 5; 5; 6; 6;
0; 0; 0x49; 0x89; 0xc9; 0x109; 0x149; 0x189; 0x1c9; 0x209; 0x249; 0x289; 0; 5; 5; 8;
0; 0; 0; 0; 0; 0; 0; 0; 0; 0; 0; 0; 5; 6; 8; 8;
0x17; 5; 5; 5; 5; 5; 5; 5; 5; 0; 5; 5; 5; 0; 5; 5;
5; 5; 5; 5; 5; 5; 5; 5; 5; 5; 5; 5; 5; 0; 5; 5;
5; 5; 5; 5; 5; 5; 5; 5; 0; 5; 5; 5; 5; 5; 0; 0].
(** [props_index] (S/char_set/props_data.hpp:511-526). *)
Definition props_30 : list Z := [
6; 5; 8; 6; 8; 8; 8; 8; 8; 0; 6; 8; 8; 0; 8; 8;
6; 6; 0; 0; 0; 0; 0; 0; 0; 8; 8; 0; 0; 0; 0; 0;
0; 5; 5; 0; 5; 5; 6; 6; 0; 0; 0x49; 0x89; 0xc9; 0x109; 0x149; 0x189;
0x1c9; 0x209; 0x249; 0x289; 0x7cb; 0x1e4b; 0x784b; 0x34cb; 0x344b; 0x3ccb; 0x37cb; 0x35cb; 0x3fcb; 0x1b; 5; 5;
5; 5; 5; 5; 6; 6; 8; 8; 5; 5; 5; 5; 5; 5; 5; 5;
5; 0; 5; 5; 5; 0; 5; 5; 5; 5; 5; 5; 5; 5; 5; 5;
5; 5; 5; 5; 5; 5; 5; 5; 5; 5; 5; 5; 5; 5; 5; 5;
5; 5; 5; 6; 6; 5; 8; 8; 8; 6; 6; 6; 6; 0; 8; 8;
8; 0; 8; 8; 8; 6; 5; 0x1b; 0; 0; 0; 0; 5; 5; 5; 8;
0xcc0b; 0xca0b; 0xcb4b; 0xc90b; 0x364b; 0xc94b; 0x350b; 5; 0; 0; 0; 0; 0; 0; 0x49; 0x89;
0xc9; 0x109; 0x149; 0x189; 0x1c9; 0x209; 0x249; 0x289; 0; 0; 8; 8; 0x17; 0; 0; 0;
0; 0; 0; 0; 0; 0; 0; 0; 0; 6; 8; 8; 0; 5; 5; 5;
5; 5; 5; 5; 5; 5; 5; 5; 5; 5; 5; 5; 5; 5; 5; 0;
0; 0; 5; 5; 5; 5; 5; 5; 5; 5; 5; 5; 5; 5; 5; 5;
5; 5; 5; 5; 5; 5; 0; 5; 5; 5; 5; 5; 5; 5; 5; 5;
0; 5; 0; 0; 5; 5; 5; 5; 5; 5; 5; 0; 0; 0; 6; 0].
(** [props_index] (S/char_set/props_data.hpp:527-542). *)
Definition props_31 : list Z := [
0; 0; 0; 8; 8; 8; 6; 6; 6; 0; 6; 0; 8; 8; 8; 8;
8; 8; 8; 8; 5; 5; 5; 5; 5; 5; 5; 5; 5; 5; 5; 5;
5; 5; 5; 5; 5; 6; 5; 5; 6; 6; 6; 6; 6; 6; 6; 0;
0; 0; 0; 0x19; 5; 5; 5; 5; 5; 5; 4; 6; 6; 6; 6; 6;
6; 6; 6; 0x17; 0x49; 0x89; 0xc9; 0x109; 0x149; 0x189; 0x1c9; 0x209; 0x249; 0x289; 0x17; 0x17;
0; 0; 0; 0; 0; 5; 5; 0; 5; 0; 5; 5; 5; 5; 5; 0;
5; 5; 5; 5; 5; 5; 5; 5; 5; 5; 5; 5; 5; 5; 5; 5;
5; 5; 5; 5; 0; 5; 0; 5; 5; 5; 5; 5; 5; 5; 5; 5;
5; 6; 5; 5; 6; 6; 6; 6; 6; 6; 6; 6; 6; 5; 0; 0;
5; 5; 5; 5; 5; 0; 4; 0; 6; 6; 6; 6; 6; 6; 6; 0;
0x49; 0x89; 0xc9; 0x109; 0x149; 0x189; 0x1c9; 0x209; 0x249; 0x289; 0; 0; 5; 5; 5; 5;
5; 0x1b; 0x1b; 0x1b; 0x17; 0x17; 0x17; 0x17; 0x17; 0x17; 0x17; 0x17; 0x17; 0x17; 0x17; 0x17;
0x17; 0x17; 0x17; 0x1b; 0x17; 0x1b; 0x1b; 0x1b; 6; 6; 0x1b; 0x1b; 0x1b; 0x1b; 0x1b; 0x1b;
0x49; 0x89; 0xc9; 0x109; 0x149; 0x189; 0x1c9; 0x209; 0x249; 0x289; 0x344b; 0x3c4b; 0x444b; 0x4c4b; 0x544b; 0x5c4b;
0x644b; 0x6c4b; 0x744b; 0x2c4b; 0x1b; 6; 0x1b; 6; 0x1b; 6; 0x14; 0x15; 0x14; 0x15; 8; 8;
5; 5; 5; 5; 5; 5; 5; 5; 0; 5; 5; 5; 5; 5; 5; 5].
(** [props_index] (S/char_set/props_data.hpp:543-558). *)
Definition props_32 : list Z := [
5; 5; 5; 5; 5; 5; 5; 5; 5; 5; 5; 5; 5; 5; 5; 5;
5; 0; 0; 0; 0; 6; 6; 6; 6; 6; 6; 6; 6; 6; 6; 6;
6; 6; 6; 8; 6; 6; 6; 6; 6; 0x17; 6; 6; 5; 5; 5; 5;
5; 6; 6; 6; 6; 6; 6; 6; 6; 6; 6; 6; 0; 6; 6; 6;
6; 6; 6; 6; 6; 6; 6; 6; 6; 6; 6; 6; 6; 6; 6; 6;
6; 6; 6; 6; 6; 6; 6; 6; 6; 6; 6; 6; 6; 0; 0x1b; 0x1b;
0x1b; 0x1b; 0x1b; 0x1b; 0x1b; 0x1b; 6; 0x1b; 0x1b; 0x1b; 0x1b; 0x1b; 0x1b; 0; 0x1b; 0x1b;
0x17; 0x17; 0x17; 0x17; 0x17; 0x1b; 0x1b; 0x1b; 0x1b; 0x17; 0x17; 0; 0; 0; 0; 0;
5; 5; 5; 5; 5; 5; 5; 5; 5; 5; 5; 8; 8; 6; 6; 6;
6; 8; 6; 6; 6; 6; 6; 6; 8; 6; 6; 8; 8; 6; 6; 5;
0x49; 0x89; 0xc9; 0x109; 0x149; 0x189; 0x1c9; 0x209; 0x249; 0x289; 0x17; 0x17; 0x17; 0x17; 0x17; 0x17;
5; 5; 5; 5; 5; 5; 8; 8; 6; 6; 5; 5; 5; 5; 6; 6;
6; 5; 8; 8; 8; 5; 5; 8; 8; 8; 8; 8; 8; 8; 5; 5;
5; 6; 6; 6; 6; 5; 5; 5; 5; 5; 5; 5; 5; 5; 5; 5;
5; 5; 6; 8; 8; 6; 6; 8; 8; 8; 8; 8; 8; 6; 5; 8;
0x49; 0x89; 0xc9; 0x109; 0x149; 0x189; 0x1c9; 0x209; 0x249; 0x289; 8; 8; 8; 6; 0x1b; 0x1b].
(** [props_index] (S/char_set/props_data.hpp:559-574). *)
Definition props_33 : list Z := [
2; 2; 2; 2; 2; 2; 2; 2; 2; 2; 2; 2; 2; 2; 2; 2;
2; 2; 2; 2; 2; 2; 2; 2; 2; 2; 2; 0x17; 4; 2; 2; 2;
1; 1; 1; 1; 1; 1; 0; 1; 0; 0; 0; 0; 0; 1; 0; 0;
2; 2; 2; 2; 2; 2; 2; 2; 2; 2; 2; 2; 2; 2; 2; 2;
5; 5; 5; 5; 5; 5; 5; 5; 5; 0; 5; 5; 5; 5; 0; 0;
5; 5; 5; 5; 5; 5; 5; 0; 5; 0; 5; 5; 5; 5; 0; 0;
5; 5; 5; 5; 5; 5; 5; 5; 5; 0; 5; 5; 5; 5; 0; 0;
5; 5; 5; 5; 5; 5; 5; 5; 5; 5; 5; 5; 5; 5; 5; 5;
5; 0; 5; 5; 5; 5; 0; 0; 5; 5; 5; 5; 5; 5; 5; 0;
5; 0; 5; 5; 5; 5; 0; 0; 5; 5; 5; 5; 5; 5; 5; 5;
5; 5; 5; 5; 5; 5; 5; 0; 5; 5; 5; 5; 5; 5; 5; 5;
5; 5; 5; 5; 5; 5; 5; 5; 5; 0; 5; 5; 5; 5; 0; 0;
5; 5; 5; 5; 5; 5; 5; 5; 5; 5; 5; 5; 5; 5; 5; 5;
5; 5; 5; 5; 5; 5; 5; 5; 5; 5; 5; 0; 0; 6; 6; 6;
0x17; 0x17; 0x17; 0x17; 0x17; 0x17; 0x17; 0x17; 0x17; 0x30b; 0x34b; 0x38b; 0x3cb; 0x40b; 0x44b; 0x48b;
0x4cb; 0x50b; 0x7cb; 0xa4b; 0xccb; 0xf4b; 0x11cb; 0x144b; 0x16cb; 0x194b; 0x1bcb; 0x1e4b; 0x788b; 0; 0; 0].
(** [props_index] (S/char_set/props_data.hpp:575-590). *)
Definition props_34 : list Z := [
5; 5; 5; 5; 5; 5; 5; 5; 5; 5; 5; 5; 5; 5; 5; 5;
0x1b; 0x1b; 0x1b; 0x1b; 0x1b; 0x1b; 0x1b; 0x1b; 0x1b; 0x1b; 0; 0; 0; 0; 0; 0;
1; 1; 1; 1; 1; 1; 1; 1; 1; 1; 1; 1; 1; 1; 1; 1;
1; 1; 1; 1; 1; 1; 0; 0; 2; 2; 2; 2; 2; 2; 0; 0;
0x13; 5; 5; 5; 5; 5; 5; 5; 5; 5; 5; 5; 5; 5; 5; 5;
5; 5; 5; 5; 5; 5; 5; 5; 5; 5; 5; 5; 5; 5; 5; 5;
5; 0x1b; 0x17; 5; 5; 5; 5; 5; 5; 5; 5; 5; 5; 5; 5; 5;
5; 5; 5; 5; 0xc; 5; 5; 5; 5; 5; 5; 5; 5; 5; 5; 5;
5; 5; 5; 5; 5; 5; 5; 5; 5; 5; 5; 5; 5; 5; 5; 0x14;
0x15; 0; 0; 0; 5; 5; 5; 5; 5; 5; 5; 5; 5; 5; 5; 0x17;
0x17; 0x17; 0x98a; 0x9ca; 0xa0a; 5; 5; 5; 5; 5; 5; 5; 5; 0; 0; 0;
0; 0; 0; 0; 5; 5; 5; 5; 5; 5; 5; 5; 5; 5; 5; 5;
5; 5; 5; 5; 5; 5; 6; 6; 6; 8; 0; 0; 0; 0; 0; 0;
0; 0; 0; 5; 5; 5; 5; 5; 5; 5; 5; 5; 5; 5; 5; 5;
5; 5; 5; 5; 5; 5; 6; 6; 8; 0x17; 0x17; 0; 0; 0; 0; 0;
0; 0; 0; 0; 5; 5; 5; 5; 5; 5; 5; 5; 5; 5; 5; 5].
(** [props_index] (S/char_set/props_data.hpp:591-606). *)
Definition props_35 : list Z := [
5; 5; 5; 5; 5; 5; 6; 6; 0; 0; 0; 0; 0; 0; 0; 0;
0; 0; 0; 0; 5; 5; 5; 5; 5; 5; 5; 5; 5; 5; 5; 5;
5; 0; 5; 5; 5; 0; 6; 6; 0; 0; 0; 0; 0; 0; 0; 0;
0; 0; 0; 0; 5; 5; 5; 5; 5; 5; 5; 5; 5; 5; 5; 5;
5; 5; 5; 5; 5; 5; 5; 5; 6; 6; 8; 6; 6; 6; 6; 6;
6; 6; 8; 8; 8; 8; 8; 8; 8; 8; 6; 8; 8; 6; 6; 6;
6; 6; 6; 6; 6; 6; 6; 6; 0x17; 0x17; 0x17; 4; 0x17; 0x17; 0x17; 0x19;
5; 6; 0; 0; 0x49; 0x89; 0xc9; 0x109; 0x149; 0x189; 0x1c9; 0x209; 0x249; 0x289; 0; 0;
0; 0; 0; 0; 0x54b; 0x58b; 0x5cb; 0x60b; 0x64b; 0x68b; 0x6cb; 0x70b; 0x74b; 0x78b; 0; 0;
0; 0; 0; 0; 5; 5; 5; 5; 5; 5; 5; 5; 5; 6; 5; 0;
0; 0; 0; 0; 5; 5; 5; 5; 5; 5; 5; 5; 5; 5; 5; 5;
5; 5; 5; 5; 0x17; 0x17; 0x17; 0x17; 0x17; 0x17; 0x13; 0x17; 0x17; 0x17; 0x17; 6;
6; 6; 0x10; 6; 0x49; 0x89; 0xc9; 0x109; 0x149; 0x189; 0x1c9; 0x209; 0x249; 0x289; 0; 0;
0; 0; 0; 0; 5; 5; 5; 4; 5; 5; 5; 5; 5; 5; 5; 5;
5; 5; 5; 5; 5; 5; 5; 5; 5; 5; 5; 5; 5; 5; 5; 5;
5; 5; 5; 5; 5; 0; 0; 0; 0; 0; 0; 0; 5; 5; 5; 5].
(** [props_index] (S/char_set/props_data.hpp:607-622). *)
Definition props_36 : list Z := [
5; 6; 6; 5; 5; 5; 5; 5; 5; 5; 5; 5; 5; 5; 5; 5;
5; 5; 5; 5; 5; 5; 5; 5; 5; 5; 5; 5; 5; 5; 0; 0;
0; 0; 0; 0; 0; 0; 0; 0; 6; 6; 6; 8; 8; 8; 8; 6;
6; 8; 8; 8; 0; 0; 0; 0; 8; 8; 6; 8; 8; 8; 8; 8;
8; 6; 6; 6; 0; 0; 0; 0; 0x1b; 0; 0; 0; 0x17; 0x17; 0x49; 0x89;
0xc9; 0x109; 0x149; 0x189; 0x1c9; 0x209; 0x249; 0x289; 5; 5; 5; 5; 5; 5; 5; 5;
5; 5; 5; 5; 5; 5; 5; 5; 5; 5; 5; 5; 5; 5; 5; 5;
5; 5; 5; 5; 5; 5; 5; 0; 5; 5; 5; 5; 5; 5; 5; 5;
5; 5; 5; 5; 5; 5; 0; 0; 5; 5; 5; 5; 5; 0; 0; 0;
0; 0; 0; 0; 0; 0; 0; 0; 5; 5; 5; 5; 5; 5; 5; 5;
5; 5; 5; 5; 0; 0; 0; 0; 5; 5; 5; 5; 5; 5; 5; 5;
5; 5; 5; 5; 5; 5; 5; 5; 5; 5; 0; 0; 0; 0; 0; 0;
0x49; 0x89; 0xc9; 0x109; 0x149; 0x189; 0x1c9; 0x209; 0x249; 0x289; 0x30b; 0; 0; 0; 0x1b; 0x1b;
0x1b; 0x1b; 0x1b; 0x1b; 0x1b; 0x1b; 0x1b; 0x1b; 0x1b; 0x1b; 0x1b; 0x1b; 0x1b; 0x1b; 0x1b; 0x1b;
0x1b; 0x1b; 0x1b; 0x1b; 0x1b; 0x1b; 0x1b; 0x1b; 0x1b; 0x1b; 0x1b; 0x1b; 0x1b; 0x1b; 0x1b; 0x1b;
5; 5; 5; 5; 5; 5; 5; 5; 5; 5; 5; 5; 5; 5; 5; 5].
(** [props_index] (S/char_set/props_data.hpp:623-638). *)
Definition props_37 : list Z := [
5; 5; 5; 5; 5; 5; 5; 6; 6; 8; 8; 6; 0; 0; 0x17; 0x17;
0x17; 0x17; 0x17; 0x17; 0x17; 0x17; 0x17; 4; 0x17; 0x17; 0x17; 0x17; 0x17; 0x17; 0; 0;
6; 6; 6; 6; 6; 6; 6; 6; 6; 6; 6; 6; 6; 6; 7; 6;
5; 5; 5; 5; 5; 5; 5; 5; 5; 5; 5; 5; 5; 5; 5; 5;
5; 5; 5; 5; 5; 8; 6; 8; 6; 6; 6; 6; 6; 6; 6; 0;
6; 8; 6; 8; 8; 6; 6; 6; 6; 6; 6; 6; 6; 8; 8; 8;
8; 8; 8; 6; 6; 6; 6; 6; 6; 6; 6; 6; 6; 0; 0; 6;
0x49; 0x89; 0xc9; 0x109; 0x149; 0x189; 0x1c9; 0x209; 0x249; 0x289; 0; 0; 0; 0; 0; 0;
0x49; 0x89; 0xc9; 0x109; 0x149; 0x189; 0x1c9; 0x209; 0x249; 0x289; 0; 0; 0; 0; 0; 0;
0x17; 0x1b; 0x1b; 0x1b; 0x1b; 0x1b; 0x1b; 0x1b; 0x1b; 0x1b; 0x1b; 6; 6; 6; 6; 6;
6; 6; 6; 6; 0x1b; 0x1b; 0x1b; 0x1b; 0x1b; 0x1b; 0x1b; 0x1b; 0x1b; 0x17; 0x17; 0;
6; 6; 6; 6; 6; 6; 6; 6; 6; 6; 6; 6; 6; 6; 6; 0;
0; 0; 0; 0; 0; 0; 0; 0; 0; 0; 0; 0; 0; 0; 0; 0;
6; 6; 6; 6; 8; 5; 5; 5; 5; 5; 5; 5; 5; 5; 5; 5;
5; 5; 5; 5; 5; 5; 5; 5; 5; 5; 5; 5; 5; 5; 5; 5;
6; 8; 6; 6; 6; 6; 6; 8; 6; 8; 8; 8; 8; 8; 6; 8].
(** [props_index] (S/char_set/props_data.hpp:639-654). *)
Definition props_38 : list Z := [
8; 5; 5; 5; 5; 5; 5; 5; 5; 0; 0; 0; 0x49; 0x89; 0xc9; 0x109;
0x149; 0x189; 0x1c9; 0x209; 0x249; 0x289; 0x17; 0x17; 0x17; 0x17; 0x17; 0x17; 5; 8; 6; 6;
6; 6; 8; 8; 6; 6; 8; 6; 6; 6; 5; 5; 0x49; 0x89; 0xc9; 0x109;
0x149; 0x189; 0x1c9; 0x209; 0x249; 0x289; 5; 5; 5; 5; 5; 5; 6; 6; 8; 5;
5; 5; 5; 5; 5; 5; 5; 5; 5; 5; 5; 5; 5; 5; 5; 5;
5; 5; 5; 5; 5; 5; 5; 5; 5; 5; 5; 5; 5; 5; 6; 8;
6; 6; 8; 8; 8; 6; 8; 6; 6; 6; 8; 8; 0; 0; 0; 0;
0; 0; 0; 0; 0x17; 0x17; 0x17; 0x17; 0x49; 0x89; 0xc9; 0x109; 0x149; 0x189; 0x1c9; 0x209;
0x249; 0x289; 0; 0; 0; 5; 5; 5; 0x49; 0x89; 0xc9; 0x109; 0x149; 0x189; 0x1c9; 0x209;
0x249; 0x289; 5; 5; 5; 5; 5; 5; 8; 8; 8; 8; 8; 8; 8; 8;
6; 6; 6; 6; 6; 6; 6; 6; 8; 8; 6; 6; 0; 0; 0; 0x17;
0x17; 0x17; 0x17; 0x17; 5; 5; 5; 5; 5; 5; 5; 5; 5; 5; 5; 5;
5; 5; 5; 5; 5; 5; 5; 5; 5; 5; 5; 5; 4; 4; 4; 4;
4; 4; 0x17; 0x17; 2; 2; 2; 2; 2; 2; 2; 2; 2; 0; 0; 0;
0; 0; 0; 0; 1; 1; 1; 1; 1; 1; 1; 1; 1; 1; 1; 1;
1; 1; 1; 1; 1; 1; 1; 1; 1; 1; 1; 1; 1; 1; 1; 0].
(** [props_index] (S/char_set/props_data.hpp:655-670). *)
Definition props_39 : list Z := [
0; 1; 1; 1; 0x17; 0x17; 0x17; 0x17; 0x17; 0x17; 0x17; 0x17; 0; 0; 0; 0;
0; 0; 0; 0; 6; 6; 6; 0x17; 6; 6; 6; 6; 6; 6; 6; 6;
6; 6; 6; 6; 6; 8; 6; 6; 6; 6; 6; 6; 6; 5; 5; 5;
5; 6; 5; 5; 5; 5; 5; 5; 6; 5; 5; 8; 6; 6; 5; 0;
0; 0; 0; 0; 2; 2; 2; 2; 2; 2; 2; 2; 2; 2; 2; 2;
4; 4; 4; 4; 4; 4; 4; 4; 4; 4; 4; 4; 4; 4; 4; 4;
4; 4; 4; 4; 4; 4; 4; 4; 4; 4; 4; 4; 4; 4; 4; 4;
4; 4; 4; 2; 2; 2; 2; 2; 2; 2; 2; 2; 2; 2; 2; 2;
4; 2; 2; 2; 2; 2; 2; 2; 2; 2; 2; 2; 2; 2; 2; 2;
2; 2; 2; 2; 2; 2; 2; 2; 2; 2; 2; 2; 2; 2; 2; 4;
4; 4; 4; 4; 1; 2; 1; 2; 1; 2; 1; 2; 1; 2; 1; 2;
1; 2; 1; 2; 1; 2; 1; 2; 1; 2; 2; 2; 2; 2; 2; 2;
2; 2; 1; 2; 2; 2; 2; 2; 2; 2; 2; 2; 1; 1; 1; 1;
1; 0x1a; 0x1a; 0x1a; 0; 0; 2; 2; 2; 0; 2; 2; 1; 1; 1; 1;
3; 0x1a; 0x1a; 0; 2; 2; 2; 2; 2; 2; 2; 2; 1; 1; 1; 1;
1; 1; 1; 1; 2; 2; 2; 2; 2; 2; 0; 0; 1; 1; 1; 1].
(** [props_index] (S/char_set/props_data.hpp:671-686). *)
Definition props_40 : list Z := [
1; 1; 0; 0; 2; 2; 2; 2; 2; 2; 2; 2; 1; 1; 1; 1;
1; 1; 1; 1; 2; 2; 2; 2; 2; 2; 2; 2; 1; 1; 1; 1;
1; 1; 1; 1; 2; 2; 2; 2; 2; 2; 0; 0; 1; 1; 1; 1;
1; 1; 0; 0; 2; 2; 2; 2; 2; 2; 2; 2; 0; 1; 0; 1;
0; 1; 0; 1; 2; 2; 2; 2; 2; 2; 2; 2; 1; 1; 1; 1;
1; 1; 1; 1; 2; 2; 2; 2; 2; 2; 2; 2; 2; 2; 2; 2;
2; 2; 0; 0; 2; 2; 2; 2; 2; 2; 2; 2; 3; 3; 3; 3;
3; 3; 3; 3; 2; 2; 2; 2; 2; 2; 2; 2; 3; 3; 3; 3;
3; 3; 3; 3; 2; 2; 2; 2; 2; 0; 2; 2; 1; 1; 1; 1;
3; 0x1a; 2; 0x1a; 0x1a; 0x1a; 2; 2; 2; 0; 2; 2; 1; 1; 1; 1;
3; 0x1a; 0x1a; 0x1a; 2; 2; 2; 2; 0; 0; 2; 2; 1; 1; 1; 1;
0; 0x1a; 0x1a; 0x1a; 0x16; 0x17; 0x17; 0x17; 0x18; 0x14; 0x15; 0x17; 0x17; 0x17; 0x17; 0x17;
0x17; 0x17; 0x17; 0x17; 0x17; 0x17; 0x18; 0x17; 0x16; 0x17; 0x17; 0x17; 0x17; 0x17; 0x17; 0x17;
0x17; 0x17; 0x17; 0xc; 0x10; 0x10; 0x10; 0x10; 0x10; 0; 0x10; 0x10; 0x10; 0x10; 0x10; 0x10;
0x10; 0x10; 0x10; 0x10; 0x2cb; 4; 0; 0; 0x3cb; 0x40b; 0x44b; 0x48b; 0x4cb; 0x50b; 0x18; 0x18;
0x18; 0x14; 0x15; 4; 0xc; 0xc; 0xc; 0xc; 0xc; 0xc; 0xc; 0xc; 0xc; 0xc; 0xc; 0x10].
(** [props_index] (S/char_set/props_data.hpp:687-702). *)
Definition props_41 : list Z := [
0x10; 0x10; 0x10; 0x10; 0x13; 0x13; 0x13; 0x13; 0x13; 0x13; 0x17; 0x17; 0x1c; 0x1d; 0x14; 0x1c;
0x1c; 0x1d; 0x14; 0x1c; 0x17; 0x17; 0x17; 0x17; 0x17; 0x17; 0x17; 0x17; 0xd; 0xe; 0x10; 0x10;
0x10; 0x10; 0x10; 0xc; 0x17; 0x17; 0x17; 0x17; 0x17; 0x17; 0x17; 0x17; 0x17; 0x1c; 0x1d; 0x17;
0x17; 0x17; 0x17; 0x16; 0x2cb; 0x30b; 0x34b; 0x38b; 0x3cb; 0x40b; 0x44b; 0x48b; 0x4cb; 0x50b; 0x18; 0x18;
0x18; 0x14; 0x15; 0; 4; 4; 4; 4; 4; 4; 4; 4; 4; 4; 4; 4;
4; 0; 0; 0; 0x19; 0x19; 0x19; 0x19; 0x19; 0x19; 0x19; 0x19; 0x19; 0x19; 0x19; 0x19;
0x19; 0x19; 0x19; 0x19; 0x19; 0x19; 0x19; 0x19; 0x19; 0x19; 0x19; 0x19; 0x19; 0x19; 0x19; 0x19;
0x19; 0x19; 0x19; 0x19; 0x19; 0; 0; 0; 0; 0; 0; 0; 0; 0; 0; 0;
0; 0; 0; 0; 6; 6; 6; 6; 6; 6; 6; 6; 6; 6; 6; 6;
6; 7; 7; 7; 7; 6; 7; 7; 7; 6; 6; 6; 6; 6; 6; 6;
6; 6; 6; 6; 6; 0; 0; 0; 0; 0; 0; 0; 0; 0; 0; 0;
0; 0; 0; 0; 0x1b; 0x1b; 0x1b; 0x1b; 1; 0x1b; 1; 0x1b; 1; 0x1b; 1; 1;
1; 1; 0x1b; 2; 1; 1; 1; 1; 2; 5; 5; 5; 5; 2; 0x1b; 0x1b;
2; 2; 1; 1; 0x18; 0x18; 0x18; 0x18; 0x18; 1; 2; 2; 2; 2; 0x1b; 0x18;
0x1b; 0x1b; 2; 0x1b; 0x358b; 0x360b; 0x364b; 0x348b; 0x388b; 0x350b; 0x390b; 0x3d0b; 0x410b; 0x354b; 0x454b; 0x35cb;
0x3dcb; 0x45cb; 0x4dcb; 0x58b; 0x1b; 0x1b; 1; 0x1b; 0x1b; 0x1b; 0x1b; 1; 0x1b; 0x1b; 2; 1].
(** [props_index] (S/char_set/props_data.hpp:703-718). *)
Definition props_42 : list Z := [
1; 1; 2; 2; 1; 1; 1; 2; 0x1b; 1; 0x1b; 0x1b; 0x18; 1; 1; 1;
1; 1; 0x1b; 0x1b; 0x58a; 0x5ca; 0x60a; 0x64a; 0x68a; 0x6ca; 0x70a; 0x74a; 0x78a; 0x7ca; 0x80a; 0x84a;
0x11ca; 0x1e4a; 0x980a; 0x784a; 0x58a; 0x5ca; 0x60a; 0x64a; 0x68a; 0x6ca; 0x70a; 0x74a; 0x78a; 0x7ca; 0x80a; 0x84a;
0x11ca; 0x1e4a; 0x980a; 0x784a; 0x784a; 0x984a; 0x788a; 1; 2; 0x6ca; 0x11ca; 0x988a; 0x78ca; 0x54b; 0x1b; 0x1b;
0; 0; 0; 0; 0x18; 0x18; 0x18; 0x18; 0x18; 0x1b; 0x1b; 0x1b; 0x1b; 0x1b; 0x18; 0x18;
0x1b; 0x1b; 0x1b; 0x1b; 0x1b; 0x1b; 0x1b; 0x1b; 0x1b; 0x1b; 0x1b; 0x1b; 0x1b; 0x1b; 0x1b; 0x1b;
0x1b; 0x1b; 0x1b; 0x1b; 0x18; 0x18; 0x18; 0x18; 0x18; 0x18; 0x18; 0x18; 0x18; 0x18; 0x18; 0x18;
0x18; 0x1b; 0x1b; 0x18; 0x1b; 0x1b; 0x18; 0x1b; 0x1b; 0x1b; 0x1b; 0x1b; 0x1b; 0x1b; 0x18; 0x1b;
0x1b; 0x1b; 0x1b; 0x1b; 0x1b; 0x1b; 0x1b; 0x1b; 0x1b; 0x1b; 0x1b; 0x1b; 0x1b; 0x1b; 0x1b; 0x1b;
0x1b; 0x1b; 0x18; 0x18; 0x1b; 0x1b; 0x18; 0x1b; 0x18; 0x1b; 0x1b; 0x1b; 0x1b; 0x1b; 0x1b; 0x1b;
0x1b; 0x1b; 0x1b; 0x1b; 0x18; 0x18; 0x18; 0x18; 0x18; 0x18; 0x18; 0x18; 0x18; 0x18; 0x18; 0x18;
0x18; 0x18; 0x18; 0x18; 0x18; 0x18; 0x18; 0x18; 0x18; 0x18; 0x18; 0x18; 0x18; 0x18; 0x18; 0x18;
0x18; 0x18; 0x18; 0x18; 0x1b; 0x1b; 0x1b; 0x1b; 0x1b; 0x1b; 0x1b; 0x1b; 0x14; 0x15; 0x14; 0x15;
0x1b; 0x1b; 0x1b; 0x1b; 0x1b; 0x1b; 0x1b; 0x1b; 0x1b; 0x1b; 0x1b; 0x1b; 0x1b; 0x1b; 0x1b; 0x1b;
0x1b; 0x1b; 0x1b; 0x1b; 0x18; 0x18; 0x1b; 0x1b; 0x1b; 0x1b; 0x1b; 0x1b; 0x1b; 0x14; 0x15; 0x1b;
0x1b; 0x1b; 0x1b; 0x1b; 0x1b; 0x1b; 0x1b; 0x1b; 0x1b; 0x1b; 0x1b; 0x1b; 0x1b; 0x1b; 0x1b; 0x1b].
(** [props_index] (S/char_set/props_data.hpp:719-734). *)
Definition props_43 : list Z := [
0x1b; 0x1b; 0x1b; 0x1b; 0x1b; 0x1b; 0x1b; 0x1b; 0x1b; 0x1b; 0x1b; 0x1b; 0x18; 0x1b; 0x1b; 0x1b;
0x1b; 0x1b; 0x1b; 0x1b; 0x1b; 0x1b; 0x1b; 0x1b; 0x1b; 0x1b; 0x1b; 0x1b; 0x1b; 0x1b; 0x1b; 0x1b;
0x1b; 0x1b; 0x1b; 0x1b; 0x1b; 0x1b; 0x1b; 0x1b; 0x1b; 0x1b; 0x1b; 0x18; 0x18; 0x18; 0x18; 0x18;
0x18; 0x18; 0x18; 0x18; 0x18; 0x18; 0x18; 0x18; 0x18; 0x18; 0x18; 0x18; 0x18; 0x18; 0x18; 0x18;
0x1b; 0x1b; 0x1b; 0x1b; 0x1b; 0x1b; 0x1b; 0x1b; 0x1b; 0x1b; 0x1b; 0x1b; 0x1b; 0x1b; 0x1b; 0x1b;
0x1b; 0x1b; 0x1b; 0x1b; 0x1b; 0x1b; 0x1b; 0x1b; 0x1b; 0x1b; 0x1b; 0x1b; 0x18; 0x18; 0x18; 0x18;
0x18; 0x18; 0x1b; 0x1b; 0x1b; 0x1b; 0x1b; 0x1b; 0x1b; 0x1b; 0x1b; 0x1b; 0x1b; 0x1b; 0x1b; 0x1b;
0x1b; 0x1b; 0x1b; 0x1b; 0x1b; 0x1b; 0x1b; 0x1b; 0x1b; 0x1b; 0x1b; 0x1b; 0x1b; 0x1b; 0x1b; 0x1b;
0x1b; 0x1b; 0x1b; 0; 0; 0; 0; 0; 0; 0; 0; 0; 0; 0; 0; 0;
0; 0; 0; 0; 0; 0; 0; 0; 0; 0; 0; 0; 0x1b; 0x1b; 0x1b; 0x1b;
0x1b; 0x1b; 0x1b; 0x1b; 0x1b; 0x1b; 0x2cb; 0x80b; 0x84b; 0x88b; 0x8cb; 0x90b; 0x94b; 0x98b; 0x9cb; 0xa0b;
0xa4b; 0x30b; 0x34b; 0x38b; 0x3cb; 0x40b; 0x44b; 0x48b; 0x4cb; 0x50b; 0x7cb; 0x2cb; 0x30b; 0x34b; 0x38b; 0x3cb;
0x40b; 0x44b; 0x48b; 0x4cb; 0x50b; 0x7cb; 0x80b; 0x84b; 0x88b; 0x8cb; 0x90b; 0x94b; 0x98b; 0x9cb; 0xa0b; 0xa4b;
0x30b; 0x34b; 0x38b; 0x3cb; 0x40b; 0x44b; 0x48b; 0x4cb; 0x50b; 0x7cb; 0x80b; 0x84b; 0x88b; 0x8cb; 0x90b; 0x94b;
0x98b; 0x9cb; 0xa0b; 0xa4b; 0x1b; 0x1b; 0x1b; 0x1b; 0x1b; 0x1b; 0x1b; 0x1b; 0x1b; 0x1b; 0x1b; 0x1b;
0x1b; 0x1b; 0x1b; 0x1b; 0x1b; 0x1b; 0x1b; 0x1b; 0x1b; 0x1b; 0x1b; 0x1b; 0x18; 0x18; 0x18; 0x18].
(** [props_index] (S/char_set/props_data.hpp:735-750). *)
Definition props_44 : list Z := [
0x18; 0x18; 0x18; 0x18; 0x1b; 0x1b; 0x1b; 0x1b; 0x1b; 0x1b; 0x1b; 0x1b; 0x1b; 0x1b; 0x1b; 0x1b;
0x1b; 0x1b; 0x1b; 0x1b; 0x1b; 0x1b; 0x1b; 0x1b; 0x1b; 0x1b; 0x1b; 0x18; 0x1b; 0x1b; 0x1b; 0x1b;
0x1b; 0x1b; 0x1b; 0x1b; 0x1b; 0x18; 0x1b; 0x1b; 0x1b; 0x1b; 0x1b; 0x1b; 0x1b; 0x1b; 0x1b; 0x1b;
0x1b; 0x1b; 0x1b; 0x1b; 0x1b; 0x1b; 0x1b; 0x1b; 0x1b; 0x1b; 0x1b; 0x1b; 0x1b; 0x1b; 0x1b; 0x1b;
0x1b; 0x1b; 0x1b; 0x1b; 0x1b; 0x1b; 0x1b; 0x18; 0x1b; 0x1b; 0x1b; 0x1b; 0x1b; 0x1b; 0x1b; 0x1b;
0x1b; 0x1b; 0x1b; 0x1b; 0x1b; 0x1b; 0x1b; 0x1b; 0x14; 0x15; 0x14; 0x15; 0x14; 0x15; 0x14; 0x15;
0x14; 0x15; 0x14; 0x15; 0x14; 0x15; 0x30b; 0x34b; 0x38b; 0x3cb; 0x40b; 0x44b; 0x48b; 0x4cb; 0x50b; 0x7cb;
0x30b; 0x34b; 0x38b; 0x3cb; 0x40b; 0x44b; 0x48b; 0x4cb; 0x50b; 0x7cb; 0x30b; 0x34b; 0x38b; 0x3cb; 0x40b; 0x44b;
0x48b; 0x4cb; 0x50b; 0x7cb; 0x1b; 0x1b; 0x1b; 0x1b; 0x1b; 0x1b; 0x1b; 0x1b; 0x1b; 0x1b; 0x1b; 0x1b;
0x18; 0x18; 0x18; 0x18; 0x18; 0x14; 0x15; 0x18; 0x18; 0x18; 0x18; 0x18; 0x18; 0x18; 0x18; 0x18;
0x18; 0x18; 0x18; 0x18; 0x18; 0x18; 0x18; 0x18; 0x18; 0x18; 0x18; 0x18; 0x18; 0x18; 0x18; 0x18;
0x18; 0x18; 0x14; 0x15; 0x14; 0x15; 0x14; 0x15; 0x14; 0x15; 0x14; 0x15; 0x18; 0x18; 0x18; 0x18;
0x18; 0x18; 0x18; 0x18; 0x18; 0x18; 0x18; 0x18; 0x18; 0x18; 0x18; 0x18; 0x18; 0x18; 0x18; 0x14;
0x15; 0x14; 0x15; 0x14; 0x15; 0x14; 0x15; 0x14; 0x15; 0x14; 0x15; 0x14; 0x15; 0x14; 0x15; 0x14;
0x15; 0x14; 0x15; 0x14; 0x15; 0x18; 0x18; 0x18; 0x18; 0x18; 0x18; 0x18; 0x18; 0x18; 0x18; 0x18;
0x18; 0x18; 0x18; 0x18; 0x18; 0x18; 0x18; 0x18; 0x18; 0x18; 0x18; 0x18; 0x18; 0x18; 0x18; 0x18].
(** [props_index] (S/char_set/props_data.hpp:751-766). *)
Definition props_45 : list Z := [
0x14; 0x15; 0x14; 0x15; 0x18; 0x18; 0x18; 0x18; 0x18; 0x18; 0x18; 0x18; 0x18; 0x18; 0x18; 0x18;
0x18; 0x18; 0x18; 0x18; 0x18; 0x18; 0x18; 0x18; 0x18; 0x18; 0x18; 0x18; 0x18; 0x18; 0x18; 0x18;
0x14; 0x15; 0x18; 0x18; 0x1b; 0x1b; 0x1b; 0x1b; 0x1b; 0x1b; 0x1b; 0x1b; 0x1b; 0x1b; 0x1b; 0x1b;
0x1b; 0x1b; 0x1b; 0x1b; 0x18; 0x18; 0x18; 0x18; 0x18; 0x18; 0x18; 0x18; 0x18; 0x18; 0x18; 0x18;
0x18; 0x18; 0x18; 0x18; 0x18; 0x1b; 0x1b; 0x18; 0x18; 0x18; 0x18; 0x18; 0x18; 0x1b; 0x1b; 0x1b;
0x1b; 0x1b; 0x1b; 0x1b; 0x1b; 0x1b; 0x1b; 0x1b; 0x1b; 0x1b; 0x1b; 0x1b; 0x1b; 0x1b; 0x1b; 0x1b;
0x1b; 0x1b; 0x1b; 0x1b; 0; 0; 0x1b; 0x1b; 0x1b; 0x1b; 0x1b; 0x1b; 0x1b; 0x1b; 0x1b; 0x1b;
0x1b; 0x1b; 0x1b; 0x1b; 0x1b; 0x1b; 0x1b; 0x1b; 0x1b; 0x1b; 0x1b; 0x1b; 0x1b; 0x1b; 0; 0x1b;
0x1b; 0x1b; 0x1b; 0x1b; 0x1b; 0x1b; 0x1b; 0x1b; 1; 2; 1; 1; 1; 2; 2; 1;
2; 1; 2; 1; 2; 1; 1; 1; 1; 2; 1; 2; 2; 1; 2; 2;
2; 2; 2; 2; 4; 4; 1; 1; 1; 2; 1; 2; 2; 0x1b; 0x1b; 0x1b;
0x1b; 0x1b; 0x1b; 1; 2; 1; 2; 6; 6; 6; 1; 2; 0; 0; 0; 0;
0; 0x17; 0x17; 0x17; 0x17; 0x344b; 0x17; 0x17; 2; 2; 2; 2; 2; 2; 0; 2;
0; 0; 0; 0; 0; 2; 0; 0; 5; 5; 5; 5; 5; 5; 5; 5;
5; 5; 5; 5; 5; 5; 5; 5; 0; 0; 0; 0; 0; 0; 0; 4;
0x17; 0; 0; 0; 0; 0; 0; 0; 0; 0; 0; 0; 0; 0; 0; 6].
(** [props_index] (S/char_set/props_data.hpp:767-782). *)
Definition props_46 : list Z := [
5; 5; 5; 5; 5; 5; 5; 0; 5; 5; 5; 5; 5; 5; 5; 0;
5; 5; 5; 5; 5; 5; 5; 0; 5; 5; 5; 5; 5; 5; 5; 0;
5; 5; 5; 5; 5; 5; 5; 5; 5; 5; 5; 5; 5; 5; 5; 5;
5; 5; 5; 5; 5; 5; 5; 0; 0; 0; 0; 0; 0; 0; 0; 0;
0x17; 0x17; 0x1c; 0x1d; 0x1c; 0x1d; 0x17; 0x17; 0x17; 0x1c; 0x1d; 0x17; 0x1c; 0x1d; 0x17; 0x17;
0x17; 0x17; 0x17; 0x17; 0x17; 0x17; 0x17; 0x13; 0x17; 0x17; 0x13; 0x17; 0x1c; 0x1d; 0x17; 0x17;
0x1c; 0x1d; 0x14; 0x15; 0x14; 0x15; 0x14; 0x15; 0x14; 0x15; 0x17; 0x17; 0x17; 0x17; 0x17; 4;
0x17; 0x17; 0x17; 0x17; 0x17; 0x17; 0x17; 0x17; 0x17; 0x17; 0x13; 0x13; 0x17; 0x17; 0x17; 0x17;
0x13; 0x17; 0x14; 0x17; 0x17; 0x17; 0x17; 0x17; 0x17; 0x17; 0x17; 0x17; 0x17; 0x17; 0x17; 0x17;
0x1b; 0x1b; 0x17; 0x17; 0x17; 0x14; 0x15; 0x14; 0x15; 0x14; 0x15; 0x14; 0x15; 0x13; 0; 0;
0x1b; 0x1b; 0x1b; 0x1b; 0x1b; 0x1b; 0x1b; 0x1b; 0x1b; 0x1b; 0x1b; 0x1b; 0x1b; 0x1b; 0x1b; 0x1b;
0x1b; 0x1b; 0x1b; 0x1b; 0x1b; 0x1b; 0x1b; 0x1b; 0x1b; 0x1b; 0; 0x1b; 0x1b; 0x1b; 0x1b; 0x1b;
0x1b; 0x1b; 0x1b; 0x1b; 0x1b; 0x1b; 0x1b; 0x1b; 0x1b; 0x1b; 0x1b; 0x1b; 0x1b; 0x1b; 0x1b; 0x1b;
0; 0; 0; 0; 0; 0; 0; 0; 0; 0; 0; 0; 0x1b; 0x1b; 0x1b; 0x1b;
0x1b; 0x1b; 0x1b; 0x1b; 0x1b; 0x1b; 0x1b; 0x1b; 0x1b; 0x1b; 0x1b; 0x1b; 0x1b; 0x1b; 0x1b; 0x1b;
0x1b; 0x1b; 0; 0; 0; 0; 0; 0; 0; 0; 0; 0; 0; 0; 0; 0].
(** [props_index] (S/char_set/props_data.hpp:783-798). *)
Definition props_47 : list Z := [
0; 0; 0; 0; 0x1b; 0x1b; 0x1b; 0x1b; 0x1b; 0x1b; 0x1b; 0x1b; 0x1b; 0x1b; 0x1b; 0x1b;
0; 0; 0; 0; 0x1b; 0x58a; 0x5ca; 0x60a; 0x64a; 0x68a; 0x6ca; 0x70a; 0x74a; 0x78a; 6; 6;
6; 6; 8; 8; 0x13; 4; 4; 4; 4; 4; 0x1b; 0x1b; 0x7ca; 0xa4a; 0xcca; 4;
5; 0x17; 0x1b; 0x1b; 0xc; 0x17; 0x17; 0x17; 0x1b; 4; 5; 0x54a; 0x14; 0x15; 0x14; 0x15;
0x14; 0x15; 0x14; 0x15; 0x14; 0x15; 0x1b; 0x1b; 0x14; 0x15; 0x14; 0x15; 0x14; 0x15; 0x14; 0x15;
0x13; 0x14; 0x15; 0x15; 5; 5; 5; 5; 5; 5; 5; 5; 5; 5; 5; 5;
5; 5; 5; 5; 5; 5; 5; 5; 5; 5; 5; 0; 0; 6; 6; 0x1a;
0x1a; 4; 4; 5; 5; 5; 5; 5; 5; 5; 5; 5; 5; 5; 5; 5;
5; 5; 5; 5; 5; 5; 5; 5; 5; 5; 5; 5; 5; 5; 5; 0x17;
4; 4; 4; 5; 0; 0; 0; 0; 0; 5; 5; 5; 5; 5; 5; 5;
5; 5; 5; 5; 5; 5; 5; 5; 5; 5; 5; 5; 5; 5; 5; 5;
5; 5; 5; 5; 0; 5; 5; 5; 5; 5; 5; 5; 5; 5; 5; 5;
5; 5; 5; 5; 5; 5; 5; 0; 0x1b; 0x1b; 0x58b; 0x5cb; 0x60b; 0x64b; 0x1b; 0x1b;
0x1b; 0x1b; 0x1b; 0x1b; 0x1b; 0x1b; 0x1b; 0x1b; 0; 0; 0; 0; 0; 0; 0; 0;
0; 0; 0; 0; 5; 5; 5; 5; 5; 5; 5; 5; 5; 5; 5; 5;
5; 5; 5; 5; 0x58b; 0x5cb; 0x60b; 0x64b; 0x68b; 0x6cb; 0x70b; 0x74b; 0x78b; 0x7cb; 0x1b; 0x1b].
(** [props_index] (S/char_set/props_data.hpp:799-814). *)
Definition props_48 : list Z := [
0x1b; 0x1b; 0x1b; 0x1b; 0x1b; 0x1b; 0x1b; 0x1b; 0x1b; 0x1b; 0x1b; 0x1b; 0x1b; 0x1b; 0x1b; 0x1b;
0x1b; 0x1b; 0x1b; 0x1b; 0x7cb; 0xa4b; 0xccb; 0xf4b; 0x11cb; 0x144b; 0x16cb; 0x194b; 0x1b; 0xa8b; 0xacb; 0xb0b;
0xb4b; 0xb8b; 0xbcb; 0xc0b; 0xc4b; 0xc8b; 0xccb; 0xd0b; 0xd4b; 0xd8b; 0xdcb; 0xe0b; 0x1b; 0x1b; 0x1b; 0x1b;
0x1b; 0x1b; 0x1b; 0x1b; 0x1b; 0x1b; 0x1b; 0x1b; 0x1b; 0x1b; 0x1b; 0x1b; 0x1b; 0xe4b; 0xe8b; 0xecb;
0xf0b; 0xf4b; 0xf8b; 0xfcb; 0x100b; 0x104b; 0x108b; 0x10cb; 0x110b; 0x114b; 0x118b; 0x11cb; 5; 5; 5; 5;
5; 0x685; 5; 5; 5; 5; 5; 5; 5; 5; 5; 5; 5; 5; 5; 5;
5; 5; 5; 5; 5; 5; 5; 5; 5; 5; 5; 5; 5; 5; 5; 0x5c5;
5; 5; 5; 5; 5; 5; 5; 5; 5; 5; 5; 5; 5; 5; 5; 5;
5; 5; 5; 5; 5; 5; 5; 5; 5; 5; 5; 5; 5; 5; 0x685; 5;
5; 5; 5; 5; 5; 5; 5; 5; 5; 5; 5; 5; 5; 5; 5; 5;
5; 5; 5; 5; 5; 0x705; 5; 5; 5; 5; 5; 5; 5; 5; 5; 5;
5; 5; 5; 5; 5; 5; 5; 5; 0x585; 5; 5; 0x705; 5; 5; 5; 0x7885;
5; 0x605; 5; 5; 5; 5; 5; 5; 5; 5; 5; 5; 5; 5; 5; 5;
5; 5; 5; 5; 5; 5; 5; 5; 5; 5; 5; 5; 5; 5; 5; 5;
5; 0x785; 5; 5; 5; 5; 5; 5; 5; 5; 5; 5; 5; 5; 5; 5;
0x5c5; 5; 5; 5; 5; 5; 5; 5; 0x685; 5; 0x645; 5; 5; 5; 5; 5].
(** [props_index] (S/char_set/props_data.hpp:815-830). *)
Definition props_49 : list Z := [
5; 5; 5; 5; 5; 5; 5; 5; 5; 5; 5; 5; 5; 5; 5; 5;
5; 5; 5; 5; 5; 5; 5; 5; 5; 5; 5; 0x7985; 0x7c5; 5; 5; 5;
5; 5; 5; 5; 5; 5; 5; 5; 5; 5; 5; 5; 5; 5; 5; 5;
5; 5; 5; 5; 5; 5; 5; 5; 5; 5; 5; 0x7845; 5; 5; 5; 5;
5; 5; 5; 5; 0x605; 5; 5; 5; 5; 5; 5; 5; 5; 5; 5; 5;
5; 5; 5; 5; 5; 5; 5; 5; 5; 5; 5; 5; 5; 0x685; 5; 5;
5; 5; 5; 5; 5; 5; 5; 5; 5; 5; 5; 5; 5; 5; 5; 5;
0x1e45; 5; 5; 5; 5; 5; 5; 5; 5; 5; 5; 5; 5; 5; 5; 5;
0x7985; 5; 5; 5; 5; 5; 5; 5; 5; 5; 5; 5; 5; 5; 5; 5;
5; 5; 5; 5; 5; 5; 5; 5; 5; 5; 5; 5; 5; 5; 0x7a85; 5;
5; 5; 5; 5; 5; 5; 5; 5; 5; 5; 5; 5; 5; 5; 5; 5;
5; 5; 5; 5; 5; 5; 5; 5; 5; 0x5c5; 5; 0x745; 5; 0x6c5; 5; 5;
5; 5; 5; 5; 5; 5; 5; 5; 5; 5; 5; 5; 5; 5; 5; 5;
5; 0x7c5; 5; 0x7845; 0xa45; 0xcc5; 5; 5; 5; 5; 5; 5; 0xf45; 5; 5; 5;
5; 5; 5; 5; 5; 5; 5; 5; 5; 5; 5; 5; 5; 5; 5; 5;
5; 0x605; 0x605; 0x605; 0x605; 5; 5; 5; 5; 5; 5; 5; 5; 5; 5; 5].
(** [props_index] (S/char_set/props_data.hpp:831-846). *)
Definition props_50 : list Z := [
5; 5; 5; 5; 5; 5; 5; 5; 5; 5; 5; 5; 5; 5; 5; 5;
5; 5; 5; 0x645; 5; 5; 5; 5; 5; 5; 5; 5; 5; 5; 5; 5;
5; 5; 5; 5; 5; 0x585; 5; 5; 5; 5; 5; 5; 5; 0x585; 5; 5;
5; 5; 5; 5; 5; 5; 5; 5; 5; 5; 5; 5; 5; 5; 5; 5;
5; 5; 5; 5; 5; 5; 5; 5; 5; 5; 0x585; 5; 5; 5; 5; 5;
5; 5; 5; 5; 5; 5; 5; 5; 5; 5; 5; 5; 5; 5; 5; 5;
5; 5; 5; 5; 5; 5; 5; 5; 5; 5; 0x785; 0xa45; 5; 5; 5; 5;
5; 5; 5; 5; 5; 5; 5; 5; 0x585; 0x5c5; 0x605; 5; 0x5c5; 5; 5; 5;
5; 5; 5; 5; 5; 5; 5; 5; 5; 5; 5; 5; 5; 5; 5; 5;
5; 5; 5; 5; 5; 5; 5; 5; 5; 5; 5; 5; 5; 5; 0x7c5; 5;
5; 5; 5; 5; 5; 5; 5; 5; 5; 5; 5; 5; 0x745; 5; 5; 5;
5; 5; 5; 5; 5; 5; 5; 5; 5; 5; 5; 5; 5; 5; 5; 5;
5; 5; 0x705; 5; 5; 5; 5; 5; 5; 5; 5; 5; 5; 5; 5; 5;
5; 5; 5; 5; 5; 5; 5; 5; 5; 5; 5; 5; 5; 5; 0x785; 5;
5; 5; 5; 5; 5; 5; 5; 5; 5; 5; 5; 5; 5; 5; 5; 5;
5; 5; 5; 5; 5; 5; 5; 5; 5; 5; 5; 5; 5; 5; 0x1e45; 5].
(** [props_index] (S/char_set/props_data.hpp:847-862). *)
Definition props_51 : list Z := [
5; 5; 5; 5; 5; 5; 0x645; 5; 5; 5; 5; 5; 5; 5; 5; 5;
5; 5; 5; 5; 5; 5; 5; 5; 5; 5; 5; 5; 5; 5; 5; 5;
0x7885; 5; 5; 5; 5; 5; 5; 5; 5; 5; 5; 5; 5; 5; 5; 5;
5; 5; 5; 5; 5; 5; 0x5c5; 5; 5; 5; 5; 0x5c5; 5; 5; 5; 5;
5; 5; 5; 5; 5; 5; 5; 5; 5; 5; 5; 5; 0x5c5; 5; 5; 5;
5; 5; 5; 5; 5; 5; 5; 5; 5; 5; 5; 5; 5; 0x7845; 5; 5;
5; 5; 5; 5; 5; 5; 5; 5; 5; 5; 5; 5; 5; 5; 5; 5;
5; 5; 5; 5; 5; 5; 5; 5; 5; 5; 5; 5; 5; 5; 0x6c5; 5;
5; 5; 5; 5; 0x1e45; 5; 5; 5; 5; 5; 5; 5; 5; 5; 5; 5;
5; 5; 5; 5; 5; 5; 5; 5; 5; 5; 5; 5; 5; 5; 5; 5;
0x6c5; 5; 5; 5; 5; 5; 5; 5; 5; 5; 5; 5; 5; 5; 5; 5;
5; 5; 5; 5; 5; 5; 5; 5; 5; 5; 0x545; 5; 5; 5; 5; 5;
5; 5; 5; 5; 5; 5; 5; 5; 5; 0; 0; 0; 0x1b; 0x1b; 0x1b; 0x1b;
0x1b; 0x1b; 0x1b; 0x1b; 0x1b; 0x1b; 0x1b; 0x1b; 0x1b; 0x1b; 0x1b; 0x1b; 5; 5; 5; 5;
5; 5; 5; 5; 5; 5; 5; 5; 5; 5; 5; 5; 5; 5; 5; 5;
5; 4; 5; 5; 5; 5; 5; 5; 5; 5; 5; 5; 0x1b; 0x1b; 0x1b; 0x1b].
(** [props_index] (S/char_set/props_data.hpp:863-878). *)
Definition props_52 : list Z := [
0x1b; 0x1b; 0x1b; 0; 0; 0; 0; 0; 0; 0; 0; 0; 5; 5; 5; 5;
5; 5; 5; 5; 5; 5; 5; 5; 5; 5; 5; 5; 4; 0x17; 0x17; 0x17;
5; 5; 5; 5; 5; 5; 5; 5; 5; 5; 5; 5; 5; 5; 5; 5;
0x49; 0x89; 0xc9; 0x109; 0x149; 0x189; 0x1c9; 0x209; 0x249; 0x289; 5; 5; 0; 0; 0; 0;
0; 0; 0; 0; 0; 0; 0; 0; 0; 0; 0; 0; 0; 0; 0; 0;
1; 2; 1; 2; 1; 2; 1; 2; 1; 2; 1; 2; 1; 2; 1; 2;
1; 2; 1; 2; 1; 2; 1; 2; 1; 2; 1; 2; 4; 4; 6; 6;
1; 2; 1; 2; 1; 2; 1; 2; 1; 2; 1; 2; 1; 2; 5; 6;
7; 7; 7; 0x17; 6; 6; 6; 6; 6; 6; 6; 6; 6; 6; 0x17; 4;
5; 5; 5; 5; 5; 5; 0x58a; 0x5ca; 0x60a; 0x64a; 0x68a; 0x6ca; 0x70a; 0x74a; 0x78a; 0x54a;
6; 6; 0x17; 0x17; 0x17; 0x17; 0x17; 0x17; 0; 0; 0; 0; 0; 0; 0; 0;
0x1a; 0x1a; 0x1a; 0x1a; 0x1a; 0x1a; 0x1a; 0x1a; 0x1a; 0x1a; 0x1a; 0x1a; 0x1a; 0x1a; 0x1a; 0x1a;
0x1a; 0x1a; 0x1a; 0x1a; 0x1a; 0x1a; 0x1a; 4; 4; 4; 4; 4; 4; 4; 4; 4;
0; 0; 0; 0; 0; 0; 0; 0; 0; 0; 0; 0; 0; 0; 0; 0;
0; 0; 4; 4; 4; 1; 2; 5; 4; 4; 2; 5; 5; 5; 5; 5;
0x1a; 0x1a; 1; 2; 1; 2; 1; 2; 1; 2; 1; 2; 1; 2; 1; 2].
(** [props_index] (S/char_set/props_data.hpp:879-894). *)
Definition props_53 : list Z := [
2; 2; 1; 2; 1; 2; 1; 2; 1; 2; 1; 2; 1; 2; 1; 2;
1; 2; 1; 2; 4; 2; 2; 2; 2; 2; 2; 2; 2; 1; 2; 1;
2; 1; 1; 2; 1; 2; 1; 2; 1; 2; 1; 2; 4; 0x1a; 0x1a; 1;
2; 1; 2; 5; 1; 2; 1; 2; 2; 2; 1; 2; 1; 2; 1; 2;
1; 2; 1; 2; 1; 2; 1; 1; 1; 1; 1; 2; 1; 1; 1; 1;
1; 2; 1; 2; 1; 2; 1; 2; 1; 2; 1; 2; 1; 1; 1; 1;
2; 1; 2; 0; 0; 0; 0; 0; 1; 2; 0; 2; 0; 2; 1; 2;
1; 2; 0; 0; 0; 0; 0; 0; 5; 5; 6; 5; 5; 5; 6; 5;
5; 5; 5; 6; 5; 5; 5; 5; 5; 5; 5; 5; 5; 5; 5; 5;
5; 5; 5; 5; 5; 5; 5; 5; 5; 5; 5; 8; 8; 6; 6; 8;
0x1b; 0x1b; 0x1b; 0x1b; 6; 0; 0; 0; 0x34cb; 0x344b; 0x3ccb; 0x37cb; 0x35cb; 0x3fcb; 0x1b; 0x1b;
0x19; 0x1b; 0; 0; 0; 0; 0; 0; 5; 5; 5; 5; 5; 5; 5; 5;
5; 5; 5; 5; 5; 5; 5; 5; 5; 5; 5; 5; 0x17; 0x17; 0x17; 0x17;
0; 0; 0; 0; 0; 0; 0; 0; 8; 8; 8; 8; 6; 6; 0; 0;
0; 0; 0; 0; 0; 0; 0x17; 0x17; 0x49; 0x89; 0xc9; 0x109; 0x149; 0x189; 0x1c9; 0x209;
0x249; 0x289; 0; 0; 0; 0; 0; 0; 8; 8; 5; 5; 5; 5; 5; 5].
(** [props_index] (S/char_set/props_data.hpp:895-910). *)
Definition props_54 : list Z := [
5; 5; 5; 5; 5; 5; 5; 5; 5; 5; 5; 5; 5; 5; 5; 5;
5; 5; 5; 5; 5; 5; 5; 5; 8; 8; 8; 8; 8; 8; 8; 8;
8; 8; 8; 8; 6; 6; 6; 6; 6; 6; 6; 6; 6; 6; 6; 6;
6; 6; 6; 6; 6; 6; 5; 5; 5; 5; 5; 5; 0x17; 0x17; 0x17; 5;
0x17; 5; 5; 6; 5; 5; 5; 5; 5; 5; 6; 6; 6; 6; 6; 6;
6; 6; 0x17; 0x17; 5; 5; 5; 5; 5; 5; 5; 5; 5; 5; 5; 5;
5; 5; 5; 5; 5; 5; 5; 6; 6; 6; 6; 6; 6; 6; 6; 6;
6; 6; 8; 8; 0; 0; 0; 0; 0; 0; 0; 0; 0; 0; 0; 0x17;
8; 0x17; 0x17; 0x17; 0x17; 0x17; 0x17; 0x17; 0x17; 0x17; 0x17; 0x17; 0x17; 0x17; 0; 4;
0x49; 0x89; 0xc9; 0x109; 0x149; 0x189; 0x1c9; 0x209; 0x249; 0x289; 0; 0; 0; 0; 0x17; 0x17;
5; 5; 5; 5; 5; 5; 5; 5; 5; 5; 5; 5; 5; 5; 5; 5;
5; 5; 5; 6; 8; 8; 6; 6; 6; 6; 8; 8; 6; 6; 8; 8;
5; 5; 5; 5; 5; 6; 4; 5; 5; 5; 5; 5; 5; 5; 5; 5;
0x49; 0x89; 0xc9; 0x109; 0x149; 0x189; 0x1c9; 0x209; 0x249; 0x289; 5; 5; 5; 5; 5; 0;
5; 5; 5; 5; 5; 5; 5; 5; 5; 6; 6; 6; 6; 6; 6; 8;
8; 6; 6; 8; 8; 6; 6; 0; 0; 0; 0; 0; 0; 0; 0; 0].
(** [props_index] (S/char_set/props_data.hpp:911-926). *)
Definition props_55 : list Z := [
5; 5; 5; 6; 5; 5; 5; 5; 5; 5; 5; 5; 6; 8; 0; 0;
0x49; 0x89; 0xc9; 0x109; 0x149; 0x189; 0x1c9; 0x209; 0x249; 0x289; 0; 0; 0x17; 0x17; 0x17; 0x17;
5; 5; 5; 5; 5; 5; 5; 5; 5; 5; 5; 5; 5; 5; 5; 5;
4; 5; 5; 5; 5; 5; 5; 0x1b; 0x1b; 0x1b; 5; 8; 6; 8; 5; 5;
5; 5; 5; 5; 5; 5; 5; 5; 5; 5; 5; 5; 5; 5; 5; 5;
6; 5; 6; 6; 6; 5; 5; 6; 6; 5; 5; 5; 5; 5; 6; 6;
5; 6; 5; 0; 0; 0; 0; 0; 0; 0; 0; 0; 0; 0; 0; 0;
0; 0; 0; 0; 0; 0; 0; 0; 0; 0; 0; 5; 5; 4; 0x17; 0x17;
5; 5; 5; 5; 5; 5; 5; 5; 5; 5; 5; 8; 6; 6; 8; 8;
0x17; 0x17; 5; 4; 4; 8; 6; 0; 0; 0; 0; 0; 0; 0; 0; 0;
0; 5; 5; 5; 5; 5; 5; 0; 0; 5; 5; 5; 5; 5; 5; 0;
0; 5; 5; 5; 5; 5; 5; 0; 0; 0; 0; 0; 0; 0; 0; 0;
5; 5; 5; 5; 5; 5; 5; 0; 5; 5; 5; 5; 5; 5; 5; 0;
2; 2; 2; 2; 2; 2; 2; 2; 2; 2; 2; 2; 2; 2; 2; 2;
2; 2; 2; 2; 2; 2; 2; 2; 2; 2; 2; 0x1a; 4; 4; 4; 4;
2; 2; 2; 2; 2; 2; 2; 2; 2; 4; 0x1a; 0x1a; 0; 0; 0; 0].
(** [props_index] (S/char_set/props_data.hpp:927-942). *)
Definition props_56 : list Z := [
2; 2; 2; 2; 2; 2; 2; 2; 2; 2; 2; 2; 2; 2; 2; 2;
5; 5; 5; 8; 8; 6; 8; 8; 6; 8; 8; 0x17; 8; 6; 0; 0;
0x49; 0x89; 0xc9; 0x109; 0x149; 0x189; 0x1c9; 0x209; 0x249; 0x289; 0; 0; 0; 0; 0; 0;
5; 5; 5; 5; 0; 0; 0; 0; 0; 0; 0; 0; 0; 0; 0; 0;
5; 5; 5; 5; 5; 5; 5; 5; 5; 5; 5; 5; 5; 5; 5; 5;
5; 5; 5; 5; 5; 5; 5; 5; 5; 5; 5; 5; 0; 0; 0; 0;
5; 5; 5; 5; 5; 5; 5; 0; 0; 0; 0; 5; 5; 5; 5; 5;
5; 5; 5; 5; 5; 5; 5; 5; 5; 5; 5; 5; 5; 5; 5; 5;
0x12; 0x12; 0x12; 0x12; 0x12; 0x12; 0x12; 0x12; 0x12; 0x12; 0x12; 0x12; 0x12; 0x12; 0x12; 0x12;
0x12; 0x12; 0x12; 0x12; 0x12; 0x12; 0x12; 0x12; 0x12; 0x12; 0x12; 0x12; 0x12; 0x12; 0x12; 0x12;
0x11; 0x11; 0x11; 0x11; 0x11; 0x11; 0x11; 0x11; 0x11; 0x11; 0x11; 0x11; 0x11; 0x11; 0x11; 0x11;
0x11; 0x11; 0x11; 0x11; 0x11; 0x11; 0x11; 0x11; 0x11; 0x11; 0x11; 0x11; 0x11; 0x11; 0x11; 0x11;
5; 5; 5; 5; 5; 5; 5; 5; 5; 5; 5; 0x605; 5; 5; 5; 5;
5; 5; 5; 0x7c5; 5; 5; 5; 5; 0x5c5; 5; 5; 5; 5; 5; 5; 5;
5; 5; 5; 5; 5; 5; 5; 5; 5; 5; 5; 5; 5; 0x6c5; 5; 0x6c5;
5; 5; 5; 5; 5; 5; 5; 5; 5; 5; 5; 5; 5; 5; 5; 5].
(** [props_index] (S/char_set/props_data.hpp:943-958). *)
Definition props_57 : list Z := [
5; 5; 5; 5; 5; 5; 5; 5; 5; 5; 5; 5; 5; 0x7c5; 5; 5;
5; 5; 5; 5; 5; 5; 5; 5; 5; 5; 5; 5; 5; 5; 0; 0;
5; 5; 5; 5; 5; 5; 5; 5; 5; 5; 5; 5; 5; 5; 5; 5;
5; 0x18; 5; 5; 5; 5; 5; 5; 5; 5; 5; 5; 5; 5; 5; 0;
5; 5; 5; 5; 5; 0; 5; 0; 5; 5; 0; 5; 5; 0; 5; 5;
5; 5; 5; 5; 5; 5; 5; 5; 5; 5; 5; 5; 5; 5; 5; 5;
5; 5; 5; 5; 5; 5; 5; 5; 2; 2; 2; 2; 2; 2; 2; 0;
0; 0; 0; 0; 0; 0; 0; 0; 0; 0; 0; 2; 2; 2; 2; 2;
0; 0; 0; 0; 0; 5; 6; 5; 5; 5; 5; 5; 5; 5; 5; 5;
5; 5; 5; 5; 5; 5; 5; 5; 5; 5; 0x1a; 0x1a; 0x1a; 0x1a; 0x1a; 0x1a;
0x1a; 0x1a; 0x1a; 0x1a; 0x1a; 0x1a; 0x1a; 0x1a; 0x1a; 0x1a; 0x1a; 0; 0; 0; 0; 0;
0; 0; 0; 0; 0; 0; 0; 0; 0; 0; 0; 5; 5; 5; 5; 5;
5; 5; 5; 5; 5; 5; 5; 5; 5; 5; 5; 5; 5; 5; 5; 5;
5; 5; 5; 5; 5; 5; 5; 5; 5; 5; 0x15; 0x14; 5; 5; 5; 5;
5; 5; 5; 5; 5; 5; 5; 5; 5; 5; 5; 5; 0; 0; 5; 5;
5; 5; 5; 5; 5; 5; 5; 5; 5; 5; 5; 5; 0; 0; 0; 0].
(** [props_index] (S/char_set/props_data.hpp:959-974). *)
Definition props_58 : list Z := [
0; 0; 0; 0x1b; 0; 0; 0; 0; 0; 0; 0; 0; 0; 0; 0; 0;
0; 0; 0; 0; 5; 5; 5; 5; 5; 5; 5; 5; 5; 5; 5; 5;
0x19; 0x1b; 0x1b; 0x1b; 6; 6; 6; 6; 6; 6; 6; 6; 6; 6; 6; 6;
6; 6; 6; 6; 0x17; 0x17; 0x17; 0x17; 0x17; 0x17; 0x17; 0x14; 0x15; 0x17; 0; 0;
0; 0; 0; 0; 6; 6; 6; 6; 6; 6; 6; 6; 6; 6; 6; 6;
6; 6; 6; 6; 0x17; 0x13; 0x13; 0x16; 0x16; 0x14; 0x15; 0x14; 0x15; 0x14; 0x15; 0x14;
0x15; 0x14; 0x15; 0x14; 0x15; 0x17; 0x17; 0x14; 0x15; 0x17; 0x17; 0x17; 0x17; 0x16; 0x16; 0x16;
0x17; 0x17; 0x17; 0; 0x17; 0x17; 0x17; 0x17; 0x13; 0x14; 0x15; 0x14; 0x15; 0x14; 0x15; 0x17;
0x17; 0x17; 0x18; 0x13; 0x18; 0x18; 0x18; 0; 0x17; 0x19; 0x17; 0x17; 0; 0; 0; 0;
5; 5; 5; 5; 5; 0; 5; 5; 5; 5; 5; 5; 5; 5; 5; 5;
5; 5; 5; 5; 5; 5; 5; 5; 5; 5; 5; 5; 5; 5; 5; 5;
5; 5; 5; 5; 5; 0; 0; 0x10; 0; 0; 5; 5; 5; 5; 5; 5;
0; 0; 5; 5; 5; 5; 5; 5; 0; 0; 5; 5; 5; 5; 5; 5;
0; 0; 5; 5; 5; 0; 0; 0; 0x19; 0x19; 0x18; 0x1a; 0x1b; 0x19; 0x19; 0;
0x1b; 0x18; 0x18; 0x18; 0x18; 0x1b; 0x1b; 0; 0; 0; 0; 0; 0; 0; 0; 0;
0; 0x10; 0x10; 0x10; 0x1b; 0x1b; 0; 0; 0; 0x17; 0x17; 0x17; 0x19; 0x17; 0x17; 0x17].
(** [props_index] (S/char_set/props_data.hpp:975-990). *)
Definition props_59 : list Z := [
0x14; 0x15; 0x17; 0x18; 0x17; 0x13; 0x17; 0x17; 0x49; 0x89; 0xc9; 0x109; 0x149; 0x189; 0x1c9; 0x209;
0x249; 0x289; 0x17; 0x17; 0x18; 0x18; 0x18; 0x17; 0x1a; 2; 2; 2; 2; 2; 2; 2;
2; 2; 2; 2; 2; 2; 2; 2; 2; 2; 2; 2; 2; 2; 2; 2;
2; 2; 2; 0x14; 0x18; 0x15; 0x18; 0x14; 0x15; 0x17; 0x14; 0x15; 0x17; 0x17; 5; 5;
5; 5; 5; 5; 5; 5; 5; 5; 4; 5; 5; 5; 5; 5; 5; 5;
5; 5; 5; 5; 5; 5; 5; 5; 5; 5; 5; 5; 5; 5; 5; 5;
5; 5; 5; 5; 5; 5; 5; 5; 5; 5; 4; 4; 5; 5; 5; 5;
5; 5; 5; 5; 5; 5; 5; 5; 0; 5; 5; 5; 5; 5; 5; 5;
5; 5; 5; 5; 5; 5; 5; 5; 5; 5; 5; 5; 5; 5; 5; 0;
5; 5; 5; 5; 5; 5; 5; 5; 5; 5; 5; 5; 5; 5; 5; 5;
5; 5; 5; 0; 5; 5; 0; 5; 5; 5; 5; 5; 5; 5; 5; 5;
5; 5; 5; 5; 5; 5; 0; 0; 5; 5; 5; 5; 5; 5; 5; 5;
5; 5; 5; 5; 5; 5; 0; 0; 5; 5; 5; 5; 5; 5; 5; 5;
5; 5; 5; 5; 5; 5; 5; 5; 5; 5; 5; 5; 5; 5; 5; 5;
5; 5; 5; 0; 0; 0; 0; 0; 0xb00b; 0xb80b; 0x784b; 0x804b; 0x884b; 0x904b; 0x984b; 0xa04b;
0xa84b; 0xb04b; 0xb84b; 0x788b; 0x808b; 0x888b; 0x908b; 0x988b; 0xa08b; 0xa88b; 0xb08b; 0xb88b; 0; 0; 0; 0x1b].
(** [props_index] (S/char_set/props_data.hpp:991-1006). *)
Definition props_60 : list Z := [
0x1b; 0x1b; 0x1b; 0x1b; 0x1b; 0x1b; 0x1b; 0x1b; 0x17; 0x17; 0x17; 0; 0; 0; 0; 0x58b;
0x5cb; 0x60b; 0x64b; 0x68b; 0x6cb; 0x70b; 0x74b; 0x78b; 0x7cb; 0xa4b; 0xccb; 0xf4b; 0x11cb; 0x144b; 0x16cb; 0x194b;
0x1bcb; 0x1e4b; 0x800b; 0x880b; 0x900b; 0x980b; 0xa00b; 0xa80b; 0x7ca; 0x7ca; 0x7ca; 0x7ca; 0x7ca; 0xcca; 0x11ca; 0x11ca;
0x11ca; 0x11ca; 0x1e4a; 0x880a; 0x980a; 0x980a; 0x980a; 0x980a; 0x980a; 0x784a; 0x984a; 0x68a; 0x11ca; 0x344b; 0x344b; 0x388b;
0x3ccb; 0x1b; 0x1b; 0x1b; 0x1b; 0x1b; 0x1b; 0x1b; 0x1b; 0x1b; 0x1b; 0x1b; 0x1b; 0x1b; 0x54b; 0x34cb;
0x1b; 0x1b; 0x1b; 0; 0x1b; 0x1b; 0x1b; 0x1b; 0x1b; 0x1b; 0x1b; 0x1b; 0x1b; 0x1b; 0x1b; 0x1b;
0x1b; 0; 0; 0; 0x34ca; 0x344a; 0x58a; 0x68a; 0x11ca; 0x980a; 0x984a; 0x988a; 0x68a; 0x7ca; 0x11ca; 0x1e4a;
0x980a; 0x784a; 0x984a; 0x68a; 0x7ca; 0x11ca; 0x1e4a; 0x980a; 0x784a; 0x788a; 0x988a; 0x7ca; 0x58a; 0x58a; 0x58a; 0x5ca;
0x5ca; 0x5ca; 0x5ca; 0x68a; 0x1b; 0; 0; 0; 0; 0; 0; 0; 0; 0; 0; 0;
0; 0; 0; 0; 0; 0; 0; 0; 0; 0; 0; 0; 0; 0; 0; 0;
0; 0; 0; 0; 0x1b; 0x1b; 0x1b; 0x1b; 0x1b; 0x1b; 0x1b; 0x1b; 0x1b; 0x1b; 0x1b; 0x1b;
0x1b; 0x1b; 0x1b; 0x1b; 0x1b; 0x1b; 0x1b; 0x1b; 0x1b; 0x1b; 0x1b; 0x1b; 0x1b; 0x1b; 0x1b; 0x1b;
0x1b; 6; 0; 0; 5; 5; 5; 5; 5; 5; 5; 5; 5; 5; 5; 5;
5; 5; 5; 5; 5; 0; 0; 0; 0; 0; 0; 0; 0; 0; 0; 0;
0; 0; 0; 0; 6; 0x58b; 0x5cb; 0x60b; 0x64b; 0x68b; 0x6cb; 0x70b; 0x74b; 0x78b; 0x7cb; 0xa4b;
0xccb; 0xf4b; 0x11cb; 0x144b; 0x16cb; 0x194b; 0x1bcb; 0x1e4b; 0x800b; 0x880b; 0x900b; 0x980b; 0xa00b; 0xa80b; 0xb00b; 0xb80b].
(** [props_index] (S/char_set/props_data.hpp:1007-1022). *)
Definition props_61 : list Z := [
0; 0; 0; 0; 0x58b; 0x68b; 0x7cb; 0x11cb; 0; 0; 0; 0; 0; 0; 0; 0;
0; 5; 5; 5; 5; 5; 5; 5; 5; 5; 5; 5; 5; 5; 5; 5;
5; 5; 5; 5; 5; 0x1bca; 5; 5; 5; 5; 5; 5; 5; 5; 0xb80a; 0;
0; 0; 0; 0; 5; 5; 5; 5; 5; 5; 5; 5; 5; 5; 5; 5;
5; 5; 5; 5; 5; 5; 5; 5; 5; 5; 6; 6; 6; 6; 6; 0;
0; 0; 0; 0; 5; 5; 5; 5; 5; 5; 5; 5; 5; 5; 5; 5;
5; 5; 5; 5; 5; 5; 5; 5; 5; 5; 5; 5; 5; 5; 5; 5;
5; 5; 0; 0x17; 5; 5; 5; 5; 0; 0; 0; 0; 5; 5; 5; 5;
5; 5; 5; 5; 0x17; 0x58a; 0x5ca; 0x7ca; 0xa4a; 0x1e4a; 0; 0; 0; 0; 0; 0;
0; 0; 0; 0; 2; 2; 2; 2; 2; 2; 2; 2; 2; 2; 2; 2;
2; 2; 2; 2; 5; 5; 5; 5; 5; 5; 5; 5; 5; 5; 5; 5;
5; 5; 5; 5; 5; 5; 5; 5; 5; 5; 5; 5; 5; 5; 5; 5;
5; 5; 0; 0; 0x49; 0x89; 0xc9; 0x109; 0x149; 0x189; 0x1c9; 0x209; 0x249; 0x289; 0; 0;
0; 0; 0; 0; 1; 1; 1; 1; 1; 1; 1; 1; 1; 1; 1; 1;
1; 1; 1; 1; 2; 2; 2; 2; 2; 2; 2; 2; 2; 2; 2; 2;
2; 2; 2; 2; 2; 2; 2; 2; 2; 2; 2; 2; 2; 2; 2; 2].
(** [props_index] (S/char_set/props_data.hpp:1023-1038). *)
Definition props_62 : list Z := [
0; 0; 0; 0; 1; 1; 1; 1; 1; 1; 1; 1; 1; 1; 1; 1;
1; 1; 1; 1; 1; 1; 1; 1; 0; 0; 0; 0; 2; 2; 2; 2;
2; 2; 2; 2; 5; 5; 5; 5; 5; 5; 5; 5; 0; 0; 0; 0;
0; 0; 0; 0; 5; 5; 5; 5; 5; 5; 5; 5; 5; 5; 5; 5;
5; 5; 5; 5; 0; 0; 0; 0; 0; 0; 0; 0; 0; 0; 0; 0x17;
1; 1; 1; 1; 1; 1; 1; 1; 1; 1; 1; 0; 1; 1; 1; 1;
2; 2; 0; 2; 2; 2; 2; 2; 2; 2; 2; 2; 2; 2; 2; 2;
2; 2; 0; 2; 2; 2; 2; 2; 2; 2; 0; 2; 2; 0; 0; 0;
1; 1; 1; 1; 1; 1; 1; 1; 1; 1; 1; 0; 1; 1; 1; 1;
1; 1; 1; 0; 1; 1; 0; 2; 2; 2; 2; 2; 2; 2; 2; 2;
5; 5; 5; 5; 5; 5; 5; 5; 0; 0; 0; 0; 0; 0; 0; 0;
0; 0; 0; 0; 0; 0; 0; 0; 0; 0; 0; 0; 0; 0; 0; 0;
4; 4; 4; 4; 4; 4; 4; 4; 4; 4; 4; 4; 4; 4; 4; 4;
4; 0; 4; 4; 4; 4; 4; 4; 4; 4; 4; 0; 0; 0; 0; 0;
4; 4; 4; 4; 4; 4; 0; 4; 4; 4; 4; 4; 4; 4; 4; 4;
4; 4; 4; 4; 4; 4; 4; 4; 4; 4; 4; 4; 4; 4; 4; 4].
(** [props_index] (S/char_set/props_data.hpp:1039-1054). *)
Definition props_63 : list Z := [
5; 5; 5; 5; 5; 5; 5; 5; 5; 5; 5; 5; 5; 5; 5; 5;
5; 5; 5; 5; 5; 5; 0; 5; 5; 0; 0; 0; 5; 0; 0; 5;
5; 5; 5; 5; 5; 5; 0; 0; 5; 0; 5; 5; 5; 5; 5; 5;
5; 5; 5; 5; 5; 5; 5; 5; 5; 5; 5; 5; 5; 5; 5; 5;
5; 5; 0; 0x17; 0x58b; 0x5cb; 0x60b; 0x7cb; 0xa4b; 0x1e4b; 0x784b; 0x788b; 5; 5; 5; 5;
5; 5; 5; 5; 5; 5; 5; 5; 5; 5; 5; 5; 5; 5; 5; 5;
5; 5; 5; 0x1b; 0x1b; 0x58b; 0x5cb; 0x60b; 0x64b; 0x68b; 0x7cb; 0xa4b; 0; 0; 0; 0;
0; 0; 0; 0x58b; 0x5cb; 0x60b; 0x64b; 0x64b; 0x68b; 0x7cb; 0xa4b; 0x1e4b; 0; 0; 0; 0;
0; 0; 0; 0; 0; 0; 0; 0; 0; 0; 0; 0; 5; 5; 5; 5;
5; 5; 5; 5; 5; 5; 5; 5; 5; 5; 5; 5; 5; 5; 5; 0;
5; 5; 0; 0; 0; 0; 0; 0x58b; 0x68b; 0x7cb; 0xa4b; 0x1e4b; 5; 5; 5; 5;
5; 5; 5; 5; 5; 5; 5; 5; 5; 5; 5; 5; 5; 5; 5; 5;
5; 5; 0x58b; 0x7cb; 0xa4b; 0x1e4b; 0x5cb; 0x60b; 0; 0; 0; 0x17; 5; 5; 5; 5;
5; 5; 5; 5; 5; 5; 5; 5; 5; 5; 5; 5; 5; 5; 5; 5;
5; 5; 5; 5; 5; 5; 0; 0; 0; 0; 0; 0x17; 0xa04b; 0xa84b; 0xb04b; 0xb84b;
0x788b; 0x808b; 0x888b; 0x908b; 0x988b; 0xa08b; 0xa88b; 0xb08b; 0xb88b; 0x78cb; 0x80cb; 0x88cb; 0x90cb; 0x98cb; 0xa0cb; 0xa8cb].
(** [props_index] (S/char_set/props_data.hpp:1055-1070). *)
Definition props_64 : list Z := [
0xb0cb; 0xb8cb; 0x36cb; 0x354b; 0x34cb; 0x348b; 0x46cb; 0x344b; 0x4ecb; 0x388b; 0x3ccb; 0x454b; 5; 5; 5; 5;
5; 5; 5; 5; 5; 5; 5; 5; 5; 5; 5; 5; 5; 5; 5; 5;
5; 5; 5; 5; 0; 0; 0; 0; 0x5ecb; 0x344b; 5; 5; 0x58b; 0x5cb; 0x60b; 0x64b;
0x68b; 0x6cb; 0x70b; 0x74b; 0x78b; 0x7cb; 0xa4b; 0xccb; 0xf4b; 0x11cb; 0x144b; 0x16cb; 0; 0; 0x1e4b; 0x800b;
0x880b; 0x900b; 0x980b; 0xa00b; 0xa80b; 0xb00b; 0xb80b; 0x784b; 0x804b; 0x884b; 0x904b; 0x984b; 0x30b; 0x34b; 0x38b; 0x3cb;
0x7cb; 0xa4b; 0x1e4b; 0x784b; 0x344b; 0; 0; 0; 0; 0; 0; 0; 0x17; 0x17; 0x17; 0x17;
0x17; 0x17; 0x17; 0x17; 0x17; 0; 0; 0; 0; 0; 0; 0; 5; 6; 6; 6;
0; 6; 6; 0; 0; 0; 0; 0; 6; 6; 6; 6; 5; 5; 5; 5;
0; 5; 5; 5; 0; 5; 5; 5; 5; 5; 5; 5; 5; 5; 5; 5;
5; 5; 5; 5; 5; 5; 5; 5; 5; 5; 5; 5; 5; 5; 0; 0;
6; 6; 6; 0; 0; 0; 0; 6; 5; 5; 5; 5; 5; 5; 5; 5;
5; 5; 5; 5; 5; 5; 5; 5; 5; 5; 5; 5; 5; 5; 5; 5;
5; 5; 5; 5; 5; 0x58b; 0x11cb; 0x17; 5; 5; 5; 5; 5; 5; 5; 5;
5; 5; 5; 5; 5; 5; 5; 5; 5; 5; 5; 5; 5; 5; 5; 5;
5; 5; 5; 5; 5; 0x58b; 0x7cb; 0xa4b; 5; 5; 5; 5; 5; 6; 6; 0;
0; 0; 0; 0x58b; 0x68b; 0x7cb; 0xa4b; 0x1e4b; 0x17; 0x17; 0x17; 0x17; 0x17; 0x17; 0x17; 0].
(** [props_index] (S/char_set/props_data.hpp:1071-1086). *)
Definition props_65 : list Z := [
0; 0; 0; 0; 0; 0; 0; 0; 5; 5; 5; 5; 5; 5; 5; 5;
0x1b; 5; 5; 5; 5; 5; 5; 5; 5; 5; 5; 5; 5; 5; 5; 5;
5; 5; 5; 5; 5; 5; 5; 5; 5; 5; 0; 0; 0; 0x17; 0x17; 0x17;
0x17; 0x17; 0x17; 0x17; 5; 5; 5; 5; 5; 5; 5; 5; 5; 5; 5; 5;
5; 5; 5; 5; 5; 5; 5; 5; 5; 5; 0; 0; 0x58b; 0x5cb; 0x60b; 0x64b;
0x7cb; 0xa4b; 0x1e4b; 0x784b; 5; 5; 5; 5; 5; 5; 5; 5; 5; 5; 5; 5;
5; 5; 5; 5; 5; 5; 5; 0; 0; 0; 0; 0; 0x58b; 0x5cb; 0x60b; 0x64b;
0x7cb; 0xa4b; 0x1e4b; 0x784b; 5; 5; 5; 5; 5; 5; 5; 5; 5; 5; 5; 5;
5; 5; 5; 5; 5; 5; 0; 0; 0; 0; 0; 0; 0; 0x17; 0x17; 0x17;
0x17; 0; 0; 0; 0; 0; 0; 0; 0; 0; 0; 0; 0; 0x58b; 0x5cb; 0x60b;
0x64b; 0x7cb; 0xa4b; 0x1e4b; 0; 0; 0; 0; 0; 0; 0; 0; 0; 0; 0; 0;
0; 0; 0; 0; 5; 5; 5; 5; 5; 5; 5; 5; 5; 0; 0; 0;
0; 0; 0; 0; 0; 0; 0; 0; 0; 0; 0; 0; 0; 0; 0; 0;
0; 0; 0; 0; 1; 1; 1; 1; 1; 1; 1; 1; 1; 1; 1; 1;
1; 1; 1; 1; 1; 1; 1; 0; 0; 0; 0; 0; 0; 0; 0; 0;
0; 0; 0; 0; 2; 2; 2; 2; 2; 2; 2; 2; 2; 2; 2; 2].
(** [props_index] (S/char_set/props_data.hpp:1087-1102). *)
Definition props_66 : list Z := [
2; 2; 2; 2; 2; 2; 2; 0; 0; 0; 0; 0; 0; 0; 0x58b; 0x68b;
0x7cb; 0x11cb; 0x1e4b; 0x784b; 5; 5; 5; 5; 6; 6; 6; 6; 0; 0; 0; 0;
0; 0; 0; 0; 0x49; 0x89; 0xc9; 0x109; 0x149; 0x189; 0x1c9; 0x209; 0x249; 0x289; 0; 0;
0; 0; 0; 0; 0x30b; 0x34b; 0x38b; 0x3cb; 0x40b; 0x44b; 0x48b; 0x4cb; 0x50b; 0x7cb; 0xa4b; 0xccb;
0xf4b; 0x11cb; 0x144b; 0x16cb; 0x194b; 0x1bcb; 0x1e4b; 0x800b; 0x880b; 0x900b; 0x980b; 0xa00b; 0xa80b; 0xb00b; 0xb80b; 0x344b;
0x34cb; 0x348b; 0x388b; 0; 5; 5; 5; 5; 5; 5; 5; 5; 5; 5; 0; 6;
6; 0x13; 0; 0; 5; 5; 0; 0; 0; 0; 0; 0; 0; 0; 0; 0;
0; 0; 0; 0; 0; 0; 0; 0; 0; 0; 0; 0; 0; 0; 0; 0;
0; 0; 0; 0; 0; 6; 6; 6; 5; 5; 5; 5; 5; 5; 5; 5;
5; 5; 5; 5; 5; 5; 5; 5; 5; 5; 5; 5; 5; 5; 5; 5;
5; 5; 5; 5; 5; 0x58b; 0x5cb; 0x60b; 0x64b; 0x68b; 0x7cb; 0xa4b; 0xccb; 0x1e4b; 0x344b; 5;
0; 0; 0; 0; 0; 0; 0; 0; 5; 5; 5; 5; 5; 5; 5; 5;
5; 5; 5; 5; 5; 5; 5; 5; 5; 5; 6; 6; 6; 6; 6; 6;
6; 6; 6; 6; 6; 0x58b; 0x7cb; 0xa4b; 0x1e4b; 0x17; 0x17; 0x17; 0x17; 0x17; 0; 0;
0; 0; 0; 0; 5; 5; 6; 6; 6; 6; 0x17; 0x17; 0x17; 0x17; 0; 0;
0; 0; 0; 0; 0; 0; 0; 0; 0; 0; 0; 0; 0; 0; 0; 0].
(** [props_index] (S/char_set/props_data.hpp:1103-1118). *)
Definition props_67 : list Z := [
0; 0; 0; 0; 5; 5; 5; 5; 5; 0x58b; 0x5cb; 0x60b; 0x64b; 0x7cb; 0xa4b; 0x1e4b;
0; 0; 0; 0; 0; 0; 0; 0; 0; 0; 0; 0; 0; 0; 0; 0;
0; 0; 0; 0; 0x144b; 0x16cb; 0x194b; 0x1bcb; 0x1e4b; 0x784b; 0x49; 0x89; 0xc9; 0x109; 0x149; 0x189;
0x1c9; 0x209; 0x249; 0x289; 6; 5; 5; 6; 6; 5; 0; 0; 0; 0; 0; 0;
0; 0; 0; 6; 8; 6; 8; 5; 5; 5; 5; 5; 5; 5; 5; 5;
5; 5; 5; 5; 5; 5; 5; 5; 5; 5; 5; 5; 5; 5; 5; 5;
5; 5; 5; 5; 6; 6; 6; 6; 6; 6; 6; 0x17; 0x17; 0x17; 0x17; 0x17;
0x17; 0x17; 0; 0; 0; 0; 0x30b; 0x34b; 0x38b; 0x3cb; 0x40b; 0x44b; 0x48b; 0x4cb; 0x50b; 0x7cb;
0xa4b; 0xccb; 0xf4b; 0x11cb; 5; 5; 5; 5; 5; 5; 5; 5; 5; 5; 5; 5;
5; 5; 5; 5; 8; 8; 8; 6; 6; 6; 6; 8; 8; 6; 6; 0x17;
0x17; 0x10; 0x17; 0x17; 0x17; 0x17; 6; 0; 0; 0; 0; 0; 0; 0; 0; 0;
0; 0x10; 0; 0; 5; 5; 5; 5; 5; 5; 5; 5; 5; 5; 5; 5;
5; 5; 5; 5; 5; 0; 0; 0; 0; 0; 0; 0; 0x49; 0x89; 0xc9; 0x109;
0x149; 0x189; 0x1c9; 0x209; 0x249; 0x289; 0; 0; 0; 0; 0; 0; 5; 5; 5; 5;
5; 5; 5; 6; 6; 6; 6; 6; 8; 6; 6; 6; 6; 6; 6; 6;
6; 0; 0x49; 0x89; 0xc9; 0x109; 0x149; 0x189; 0x1c9; 0x209; 0x249; 0x289; 0x17; 0x17; 0x17; 0x17].
(** [props_index] (S/char_set/props_data.hpp:1119-1134). *)
Definition props_68 : list Z := [
5; 8; 8; 5; 0; 0; 0; 0; 0; 0; 0; 0; 5; 5; 5; 5;
5; 5; 5; 5; 5; 5; 5; 5; 5; 5; 5; 5; 6; 6; 6; 5;
5; 5; 5; 5; 5; 5; 5; 5; 5; 5; 5; 5; 5; 5; 5; 5;
5; 5; 5; 5; 5; 5; 5; 5; 5; 5; 5; 5; 5; 5; 5; 6;
0x17; 0x17; 5; 0; 0; 0; 0; 0; 0; 0; 0; 0; 8; 5; 5; 5;
5; 0x17; 0x17; 0x17; 0x17; 6; 6; 6; 6; 0x17; 8; 6; 0x49; 0x89; 0xc9; 0x109;
0x149; 0x189; 0x1c9; 0x209; 0x249; 0x289; 5; 0x17; 5; 0x17; 0x17; 0x17; 5; 5; 5; 5;
5; 5; 5; 5; 5; 5; 5; 5; 5; 5; 5; 5; 5; 5; 5; 8;
8; 8; 6; 6; 6; 6; 6; 6; 6; 6; 6; 8; 0; 0x58b; 0x5cb; 0x60b;
0x64b; 0x68b; 0x6cb; 0x70b; 0x74b; 0x78b; 0x7cb; 0xa4b; 0xccb; 0xf4b; 0x11cb; 0x144b; 0x16cb; 0x194b; 0x1bcb; 0x1e4b;
0x784b; 0; 0; 0; 0; 0; 0; 0; 0; 0; 0; 0; 5; 5; 5; 5;
5; 5; 5; 5; 5; 5; 5; 5; 8; 8; 8; 6; 6; 6; 8; 8;
6; 8; 6; 6; 0x17; 0x17; 0x17; 0x17; 0x17; 0x17; 6; 5; 5; 6; 0; 0;
0; 0; 0; 0; 0; 0; 0; 0; 0; 0; 0; 0; 0; 0; 0; 0;
0; 0; 0; 0; 0; 0; 0; 0; 0; 0; 0; 0; 5; 5; 5; 5;
5; 5; 5; 5; 5; 5; 5; 5; 5; 5; 5; 5; 5; 5; 0; 5].
(** [props_index] (S/char_set/props_data.hpp:1135-1150). *)
Definition props_69 : list Z := [
5; 5; 5; 5; 5; 5; 5; 5; 5; 5; 5; 5; 5; 5; 5; 0;
5; 0; 5; 5; 5; 5; 0; 5; 5; 5; 5; 5; 5; 5; 5; 5;
5; 5; 5; 5; 5; 5; 0; 5; 5; 5; 5; 5; 5; 5; 5; 5;
5; 0x17; 0; 0; 0; 0; 0; 0; 5; 5; 5; 5; 5; 5; 5; 5;
5; 5; 5; 5; 5; 5; 5; 5; 8; 8; 8; 6; 6; 6; 6; 6;
6; 6; 6; 0; 0; 0; 0; 0; 0x49; 0x89; 0xc9; 0x109; 0x149; 0x189; 0x1c9; 0x209;
0x249; 0x289; 0; 0; 0; 0; 0; 0; 5; 5; 8; 8; 0; 0; 6; 6;
6; 6; 6; 6; 6; 0; 0; 0; 6; 6; 6; 6; 6; 0; 0; 0;
0; 0; 0; 0; 0; 0; 0; 0; 6; 6; 8; 8; 0; 5; 5; 5;
5; 5; 5; 5; 5; 0; 0; 5; 5; 0; 0; 5; 5; 5; 5; 5;
5; 5; 5; 5; 5; 5; 5; 5; 5; 0; 5; 5; 5; 5; 5; 5;
5; 0; 5; 5; 0; 5; 5; 5; 5; 5; 0; 6; 6; 5; 8; 8;
6; 8; 8; 8; 8; 0; 0; 8; 8; 0; 0; 8; 8; 8; 0; 0;
5; 0; 0; 0; 0; 0; 0; 8; 0; 0; 0; 0; 0; 5; 5; 5;
5; 5; 5; 5; 5; 5; 5; 5; 5; 5; 5; 5; 5; 5; 5; 5;
5; 5; 5; 5; 5; 8; 8; 8; 6; 6; 6; 6; 6; 6; 6; 6].
(** [props_index] (S/char_set/props_data.hpp:1151-1166). *)
Definition props_70 : list Z := [
8; 8; 6; 6; 6; 8; 6; 5; 5; 5; 5; 0x17; 0x17; 0x17; 0x17; 0x17;
0x49; 0x89; 0xc9; 0x109; 0x149; 0x189; 0x1c9; 0x209; 0x249; 0x289; 0x17; 0x17; 0; 0x17; 6; 5;
5; 5; 5; 5; 5; 5; 5; 5; 5; 5; 5; 5; 5; 5; 5; 5;
8; 8; 8; 6; 6; 6; 6; 6; 6; 8; 6; 8; 8; 8; 8; 6;
6; 8; 6; 6; 5; 5; 0x17; 5; 0; 0; 0; 0; 0; 0; 0; 0;
0x49; 0x89; 0xc9; 0x109; 0x149; 0x189; 0x1c9; 0x209; 0x249; 0x289; 0; 0; 0; 0; 0; 0;
5; 5; 5; 5; 5; 5; 5; 5; 5; 5; 5; 5; 5; 5; 5; 8;
8; 8; 6; 6; 6; 6; 0; 0; 8; 8; 8; 8; 6; 6; 8; 6;
6; 0x17; 0x17; 0x17; 0x17; 0x17; 0x17; 0x17; 0x17; 0x17; 0x17; 0x17; 0x17; 0x17; 0x17; 0x17;
0x17; 0x17; 0x17; 0x17; 0x17; 0x17; 0x17; 0x17; 5; 5; 5; 5; 6; 6; 0; 0;
5; 5; 5; 5; 5; 5; 5; 5; 5; 5; 5; 5; 5; 5; 5; 5;
8; 8; 8; 6; 6; 6; 6; 6; 6; 6; 6; 8; 8; 6; 8; 6;
6; 0x17; 0x17; 0x17; 5; 0; 0; 0; 0; 0; 0; 0; 0; 0; 0; 0;
0x49; 0x89; 0xc9; 0x109; 0x149; 0x189; 0x1c9; 0x209; 0x249; 0x289; 0; 0; 0; 0; 0; 0;
0x17; 0x17; 0x17; 0x17; 0x17; 0x17; 0x17; 0x17; 0x17; 0x17; 0x17; 0x17; 0x17; 0; 0; 0;
0; 0; 0; 0; 0; 0; 0; 0; 0; 0; 0; 0; 0; 0; 0; 0].
(** [props_index] (S/char_set/props_data.hpp:1167-1182). *)
Definition props_71 : list Z := [
0x49; 0x89; 0xc9; 0x109; 0x149; 0x189; 0x1c9; 0x209; 0x249; 0x289; 0; 0; 0; 0; 0; 0;
0; 0; 0; 0; 0; 0; 0; 0; 0; 0; 0; 0; 0; 0; 0; 0;
5; 5; 5; 5; 5; 5; 5; 5; 5; 5; 5; 6; 8; 6; 8; 8;
6; 6; 6; 6; 6; 6; 8; 6; 5; 0x17; 0; 0; 0; 0; 0; 0;
8; 8; 6; 6; 6; 6; 8; 6; 6; 6; 6; 6; 0; 0; 0; 0;
0x49; 0x89; 0xc9; 0x109; 0x149; 0x189; 0x1c9; 0x209; 0x249; 0x289; 0x7cb; 0xa4b; 0x17; 0x17; 0x17; 0x1b;
5; 5; 5; 5; 5; 5; 5; 0; 0; 0; 0; 0; 0; 0; 0; 0;
0; 0; 0; 0; 0; 0; 0; 0; 0; 0; 0; 0; 0; 0; 0; 0;
5; 5; 5; 5; 5; 5; 5; 5; 5; 5; 5; 5; 8; 8; 8; 6;
6; 6; 6; 6; 6; 6; 6; 6; 8; 6; 6; 0x17; 0; 0; 0; 0;
0x49; 0x89; 0xc9; 0x109; 0x149; 0x189; 0x1c9; 0x209; 0x249; 0x289; 0x7cb; 0xa4b; 0xccb; 0xf4b; 0x11cb; 0x144b;
0x16cb; 0x194b; 0x1bcb; 0; 0; 0; 0; 0; 0; 0; 0; 0; 0; 0; 0; 5;
8; 5; 8; 6; 0x17; 0x17; 0x17; 0; 0; 0; 0; 0; 0; 0; 0; 0;
0x49; 0x89; 0xc9; 0x109; 0x149; 0x189; 0x1c9; 0x209; 0x249; 0x289; 0; 0; 0; 0; 0; 0;
5; 5; 5; 5; 5; 5; 5; 0; 0; 5; 0; 0; 5; 5; 5; 5;
5; 5; 5; 5; 0; 5; 5; 0; 5; 5; 5; 5; 5; 5; 5; 5].
(** [props_index] (S/char_set/props_data.hpp:1183-1198). *)
Definition props_72 : list Z := [
5; 5; 5; 5; 5; 5; 5; 5; 8; 8; 8; 8; 8; 8; 0; 8;
8; 0; 0; 6; 6; 8; 6; 5; 6; 5; 0x17; 5; 8; 0; 0; 0;
0; 0; 0; 0; 0; 0; 0; 0; 0; 0; 0; 0; 0; 0; 0; 0;
0; 0; 0; 0; 0; 0; 0; 0; 5; 5; 5; 5; 5; 5; 5; 5;
0; 0; 5; 5; 5; 5; 5; 5; 5; 5; 5; 5; 5; 5; 5; 5;
5; 5; 5; 5; 5; 5; 5; 5; 5; 8; 8; 8; 6; 6; 6; 6;
0; 0; 6; 6; 8; 8; 8; 8; 5; 5; 5; 5; 5; 5; 5; 5;
5; 5; 5; 5; 5; 5; 5; 5; 5; 5; 5; 6; 6; 6; 6; 6;
6; 8; 5; 6; 6; 6; 6; 0x17; 0x17; 0x17; 0x17; 0x17; 0x17; 0x17; 0x17; 6;
0; 0; 0; 0; 0; 0; 0; 0; 5; 6; 6; 6; 6; 6; 6; 8;
8; 6; 6; 6; 5; 5; 5; 5; 5; 6; 6; 6; 6; 6; 6; 6;
6; 6; 6; 5; 5; 5; 5; 5; 5; 5; 5; 5; 5; 5; 5; 5;
5; 5; 5; 5; 5; 5; 5; 5; 0x17; 0x17; 0x17; 0; 0; 0; 0; 0;
0; 0; 0; 0; 0; 0; 0; 0; 5; 5; 5; 5; 5; 5; 5; 5;
5; 5; 5; 5; 5; 5; 5; 5; 5; 5; 6; 6; 6; 6; 6; 6;
6; 6; 6; 6; 6; 6; 6; 8; 6; 6; 0x17; 0x17; 0x17; 5; 0x17; 0x17].
(** [props_index] (S/char_set/props_data.hpp:1199-1214). *)
Definition props_73 : list Z := [
5; 0x17; 0x17; 0x17; 0x17; 0x17; 0; 0; 0; 0; 0; 0; 0; 0; 0; 0;
0x49; 0x89; 0xc9; 0x109; 0x149; 0x189; 0x1c9; 0x209; 0x249; 0x289; 0x58b; 0x5cb; 0x60b; 0x64b; 0x68b; 0x6cb;
0x17; 0x17; 0x17; 0x17; 0x17; 0x17; 0x17; 0x17; 0x17; 0x17; 0; 0; 0; 0; 0; 0;
0; 0; 0; 0; 0; 0; 0; 0; 0; 0; 0; 0; 0; 0; 0; 0;
0x70b; 0x74b; 0x78b; 0x7cb; 0xa4b; 0xccb; 0xf4b; 0x11cb; 0x144b; 0x16cb; 0x194b; 0x1bcb; 0x1e4b; 0; 0; 0;
0x17; 0x17; 5; 5; 5; 5; 5; 5; 5; 5; 5; 5; 5; 5; 5; 5;
5; 0; 5; 5; 5; 5; 5; 5; 5; 5; 5; 5; 5; 5; 5; 5;
5; 5; 5; 5; 5; 5; 5; 5; 5; 5; 5; 8; 6; 6; 6; 6;
6; 6; 6; 0; 6; 6; 6; 6; 6; 6; 8; 6; 6; 6; 6; 6;
6; 6; 6; 6; 0; 8; 6; 6; 6; 6; 6; 6; 6; 8; 6; 6;
8; 6; 6; 0; 0; 0; 0; 0; 0; 0; 0; 0; 5; 5; 5; 5;
5; 5; 5; 5; 5; 5; 5; 5; 5; 5; 5; 5; 0; 0; 6; 6;
6; 6; 6; 6; 6; 6; 6; 6; 6; 6; 6; 6; 6; 6; 5; 6;
0; 0; 0; 0; 0; 0; 0; 0; 0x49; 0x89; 0xc9; 0x109; 0x149; 0x189; 0x1c9; 0x209;
0x249; 0x289; 0; 0; 0; 0; 0; 0; 5; 5; 5; 5; 5; 5; 5; 0;
5; 5; 0; 5; 5; 5; 5; 5; 5; 5; 5; 5; 5; 5; 5; 5].
(** [props_index] (S/char_set/props_data.hpp:1215-1230). *)
Definition props_74 : list Z := [
5; 5; 5; 5; 5; 5; 5; 5; 5; 6; 6; 6; 6; 6; 6; 0;
0; 0; 6; 0; 6; 6; 0; 6; 5; 5; 5; 5; 5; 5; 5; 5;
5; 5; 8; 8; 8; 8; 8; 0; 6; 6; 0; 8; 8; 6; 8; 6;
5; 0; 0; 0; 0; 0; 0; 0; 5; 5; 5; 5; 5; 5; 0; 5;
5; 0; 5; 5; 5; 5; 5; 5; 5; 5; 5; 5; 5; 5; 5; 5;
5; 5; 5; 5; 5; 5; 5; 5; 5; 5; 5; 6; 6; 8; 8; 0x17;
0x17; 0; 0; 0; 0; 0; 0; 0; 6; 8; 6; 0x17; 0x17; 0x17; 0x17; 0x17;
0x17; 0x17; 0x17; 0x17; 0x17; 0x17; 0x17; 0x17; 0x49; 0x89; 0xc9; 0x109; 0x149; 0x189; 0x1c9; 0x209;
0x249; 0x289; 0; 0; 0; 0; 0; 0; 6; 6; 5; 8; 5; 5; 5; 5;
5; 5; 5; 5; 5; 5; 5; 5; 5; 0; 5; 5; 5; 5; 5; 5;
5; 5; 5; 5; 5; 5; 5; 5; 5; 5; 5; 5; 5; 5; 5; 5;
8; 8; 6; 6; 6; 6; 6; 0; 0; 0; 8; 8; 0; 0; 0; 0;
0; 0; 0; 0; 0; 0; 0; 0; 0; 0; 0; 0; 5; 0; 0; 0;
0; 0; 0; 0; 0; 0; 0; 0; 0; 0; 0; 0; 0x19; 0x1b; 0x1b; 0x1b;
0x1b; 0x1b; 0x1b; 0x1b; 0x1b; 0x1b; 0x1b; 0x1b; 0x1b; 0x1b; 0x1b; 0x1b; 0x1b; 0x1b; 0; 0;
0; 0; 0; 0; 0; 0; 0; 0; 0; 0; 0; 0x17; 0xcd0b; 0xcc0b; 0xcb0b; 0xd00b].
(** [props_index] (S/char_set/props_data.hpp:1231-1246). *)
Definition props_75 : list Z := [
0xca0b; 0xcf0b; 0xcb4b; 0xd04b; 0xc90b; 0x37cb; 0x37cb; 0x364b; 0x35cb; 0xc94b; 0x3fcb; 0x350b; 0x34cb; 0x344b; 0x344b; 0x3ccb;
0xcd0b; 0x1b; 0x1b; 0x1b; 0x1b; 0x1b; 0x1b; 0x1b; 0x1b; 0x19; 0x19; 0x19; 0x34ca; 0x354a; 0x34ca; 0x34ca;
0x344a; 0x348a; 0x388a; 0xf4a; 0x11ca; 0x64a; 0x68a; 0x6ca; 0x70a; 0x74a; 0x78a; 0; 0x17; 0x17; 0x17; 0x17;
0x17; 0; 0; 0; 0; 0; 0; 0; 0; 0; 0; 0; 0x5ca; 0x60a; 0x64a; 0x68a;
0x6ca; 0x70a; 0x74a; 0x78a; 0x60a; 0x64a; 0x68a; 0x6ca; 0x70a; 0x74a; 0x78a; 0x64a; 0x68a; 0x6ca; 0x70a; 0x74a;
0x78a; 0x58a; 0x5ca; 0x60a; 0x64a; 0x68a; 0x6ca; 0x70a; 0x74a; 0x78a; 0x58a; 0x5ca; 0x60a; 0x64a; 0x68a; 0x5ca;
0x60a; 0x60a; 0x64a; 0x68a; 0x6ca; 0x70a; 0x74a; 0x78a; 0x58a; 0x5ca; 0x60a; 0x60a; 0x64a; 0x68a; 0xc08a; 0xc18a;
0x58a; 0x5ca; 0x60a; 0x60a; 0x64a; 0x68a; 0x60a; 0x60a; 0x64a; 0x64a; 0x64a; 0x64a; 0x6ca; 0x70a; 0x70a; 0x70a;
0x74a; 0x74a; 0x78a; 0x78a; 0x78a; 0x78a; 0x5ca; 0x60a; 0x64a; 0x68a; 0x6ca; 0x58a; 0x5ca; 0x60a; 0x64a; 0x64a;
0x68a; 0x68a; 0x5ca; 0x60a; 0x58a; 0x5ca; 0x348a; 0x388a; 0x454a; 0x348a; 0x388a; 0x35ca; 5; 5; 5; 5;
0; 0; 0; 0; 0; 0; 0; 0; 0; 0; 0; 0; 0; 0; 0; 0;
0; 0; 0; 0; 0; 0; 0; 0; 0; 0; 0; 0; 5; 5; 5; 5;
5; 5; 5; 5; 5; 5; 5; 5; 5; 5; 5; 5; 5; 0x17; 0x17; 0;
0; 0; 0; 0; 0; 0; 0; 0; 0; 0; 0; 0; 5; 5; 5; 5;
5; 5; 5; 5; 5; 5; 5; 5; 5; 5; 5; 5; 0x10; 0x10; 0x10; 0x10;
0x10; 0x10; 0x10; 0x10; 0x10; 0x10; 0x10; 0x10; 0x10; 0x10; 0x10; 0x10; 6; 5; 5; 5].
(** [props_index] (S/char_set/props_data.hpp:1247-1262). *)
Definition props_76 : list Z := [
5; 5; 5; 6; 6; 6; 6; 6; 6; 6; 6; 6; 6; 6; 6; 6;
6; 6; 0; 0; 0; 0; 0; 0; 0; 0; 0; 0; 0x49; 0x89; 0xc9; 0x109;
0x149; 0x189; 0x1c9; 0x209; 0x249; 0x289; 0; 0; 0; 0; 0; 0; 5; 5; 5; 5;
5; 5; 5; 5; 5; 5; 5; 5; 5; 5; 5; 5; 5; 5; 0; 0;
6; 6; 6; 6; 6; 0x17; 0; 0; 0; 0; 0; 0; 0; 0; 0; 0;
5; 5; 5; 5; 5; 5; 5; 5; 5; 5; 5; 5; 5; 5; 5; 5;
0; 0; 0; 0; 0; 0; 0; 0; 0; 0; 0; 0; 0; 0; 0; 0;
5; 5; 5; 5; 5; 5; 5; 5; 5; 5; 5; 5; 5; 5; 5; 5;
6; 6; 6; 6; 6; 6; 6; 0x17; 0x17; 0x17; 0x17; 0x17; 0x1b; 0x1b; 0x1b; 0x1b;
4; 4; 4; 4; 0x17; 0x1b; 0; 0; 0; 0; 0; 0; 0; 0; 0; 0;
0x49; 0x89; 0xc9; 0x109; 0x149; 0x189; 0x1c9; 0x209; 0x249; 0x289; 0; 0x7cb; 0x1e4b; 0x788b; 0x790b; 0x798b;
0x7a0b; 0x7a8b; 0; 5; 5; 5; 5; 5; 5; 5; 5; 5; 5; 5; 5; 5;
5; 5; 5; 5; 5; 5; 5; 5; 0; 0; 0; 0; 0; 5; 5; 5;
0x54b; 0x58b; 0x5cb; 0x60b; 0x64b; 0x68b; 0x6cb; 0x70b; 0x74b; 0x78b; 0x7cb; 0x80b; 0x84b; 0x88b; 0x8cb; 0x90b;
0x94b; 0x98b; 0x9cb; 0xa0b; 0x58b; 0x5cb; 0x60b; 0x17; 0x17; 0x17; 0x17; 0; 0; 0; 0; 0;
5; 5; 5; 5; 5; 5; 5; 5; 5; 5; 5; 0; 0; 0; 0; 6].
(** [props_index] (S/char_set/props_data.hpp:1263-1278). *)
Definition props_77 : list Z := [
5; 8; 8; 8; 8; 8; 8; 8; 8; 8; 8; 8; 8; 8; 8; 8;
8; 8; 8; 8; 8; 8; 8; 8; 8; 8; 8; 8; 8; 8; 8; 8;
8; 8; 8; 8; 0; 0; 0; 0; 0; 0; 0; 6; 6; 6; 6; 4;
4; 4; 4; 4; 4; 4; 4; 4; 4; 4; 4; 4; 4; 4; 0x17; 4;
6; 0; 0; 0; 0; 0; 0; 0; 0; 0; 0; 0; 8; 8; 0; 0;
0; 0; 0; 0; 0; 0; 0; 0; 0; 0; 0; 0; 5; 5; 5; 5;
5; 5; 5; 5; 5; 5; 5; 5; 5; 5; 5; 5; 5; 5; 5; 5;
5; 5; 5; 5; 0; 0; 0; 0; 0; 0; 0; 0; 0; 0; 0; 0;
0; 0; 0; 0; 4; 4; 4; 4; 0; 4; 4; 4; 4; 4; 4; 4;
0; 4; 4; 0; 5; 5; 5; 0; 0; 0; 0; 0; 0; 0; 0; 0;
0; 0; 0; 0; 0; 0; 5; 0; 0; 0; 0; 0; 0; 0; 0; 0;
0; 0; 0; 0; 0; 0; 0; 0; 5; 5; 5; 0; 0; 5; 0; 0;
0; 0; 0; 0; 0; 0; 0; 0; 5; 5; 5; 5; 0; 0; 0; 0;
0; 0; 0; 0; 5; 5; 5; 5; 5; 5; 5; 5; 5; 5; 5; 5;
5; 5; 5; 5; 5; 5; 5; 0; 0; 0; 0; 0; 5; 5; 5; 5;
5; 5; 5; 5; 5; 5; 5; 5; 5; 0; 0; 0; 0; 0; 0; 0].
(** [props_index] (S/char_set/props_data.hpp:1279-1294). *)
Definition props_78 : list Z := [
5; 5; 5; 5; 5; 5; 5; 5; 5; 5; 0; 0; 0x1b; 6; 6; 0x17;
0x10; 0x10; 0x10; 0x10; 0; 0; 0; 0; 0; 0; 0; 0; 0; 0; 0; 0;
0; 0; 0; 0; 0; 0; 0; 0; 0; 0; 0; 0; 0; 0; 0; 0;
0x1b; 0x1b; 0x1b; 0x1b; 0; 0; 0; 0; 0; 0; 0; 0; 0; 0; 0; 0;
0; 0; 0; 0; 0; 0; 0; 0; 0; 0; 0; 0; 0; 0; 0; 0;
6; 6; 6; 6; 6; 6; 6; 6; 6; 6; 6; 6; 6; 6; 0; 0;
6; 6; 6; 6; 6; 6; 6; 6; 6; 6; 6; 6; 6; 6; 6; 6;
6; 6; 6; 0; 0; 0; 0; 0; 0; 0; 0; 0; 0x1b; 0x1b; 0x1b; 0x1b;
0x1b; 0x1b; 0x1b; 0x1b; 0x1b; 0x1b; 0x1b; 0x1b; 0x1b; 0x1b; 0x1b; 0x1b; 0x1b; 0x1b; 0x1b; 0;
0; 0x1b; 0x1b; 0x1b; 0x1b; 0x1b; 0x1b; 0x1b; 0x1b; 0x1b; 0x1b; 0x1b; 0x1b; 0x1b; 0x1b; 0x1b;
0x1b; 0x1b; 0x1b; 0x1b; 0x1b; 0x1b; 0x1b; 0x1b; 0x1b; 8; 8; 6; 6; 6; 0x1b; 0x1b;
0x1b; 8; 8; 8; 8; 8; 8; 0x10; 0x10; 0x10; 0x10; 0x10; 0x10; 0x10; 0x10; 6;
6; 6; 6; 6; 6; 6; 6; 0x1b; 0x1b; 6; 6; 6; 6; 6; 6; 6;
0x1b; 0x1b; 0x1b; 0x1b; 0x1b; 0x1b; 0x1b; 0x1b; 0x1b; 0x1b; 0x1b; 0x1b; 0x1b; 0x1b; 0x1b; 0x1b;
0x1b; 0x1b; 0x1b; 0x1b; 0x1b; 0x1b; 6; 6; 6; 6; 0x1b; 0x1b; 0x1b; 0x1b; 0x1b; 0x1b;
0x1b; 0x1b; 0x1b; 0x1b; 0x1b; 0x1b; 0x1b; 0x1b; 0x1b; 0x1b; 0x1b; 0x1b; 0x1b; 0x1b; 6; 6].
(** [props_index] (S/char_set/props_data.hpp:1295-1310). *)
Definition props_79 : list Z := [
6; 0x1b; 0; 0; 0; 0; 0; 0; 0; 0; 0; 0; 0; 0; 0; 0;
0; 0; 0; 0; 0; 0; 0; 0; 0; 0; 0; 0; 0x54b; 0x58b; 0x5cb; 0x60b;
0x64b; 0x68b; 0x6cb; 0x70b; 0x74b; 0x78b; 0x7cb; 0x80b; 0x84b; 0x88b; 0x8cb; 0x90b; 0x94b; 0x98b; 0x9cb; 0xa0b;
0; 0; 0; 0; 0; 0; 0; 0; 0; 0; 0; 0; 0x58b; 0x5cb; 0x60b; 0x64b;
0x68b; 0x6cb; 0x70b; 0x74b; 0x78b; 0x7cb; 0xa4b; 0xccb; 0xf4b; 0x11cb; 0x144b; 0x16cb; 0x194b; 0x1bcb; 0x58b; 0x5cb;
0x60b; 0x64b; 0x68b; 0x58b; 0x68b; 0; 0; 0; 0; 0; 0; 0; 0x249; 0x289; 0x49; 0x89;
0xc9; 0x109; 0x149; 0x189; 0x1c9; 0x209; 0x249; 0x289; 0x49; 0x89; 0xc9; 0x109; 0x149; 0x189; 0x1c9; 0x209;
0x249; 0x289; 0x49; 0x89; 0xc9; 0x109; 0x149; 0x189; 0x1c9; 0x209; 0x249; 0x289; 1; 1; 1; 1;
1; 1; 1; 1; 1; 1; 1; 1; 1; 1; 1; 1; 1; 1; 1; 1;
1; 1; 1; 1; 1; 1; 2; 2; 2; 2; 2; 2; 2; 2; 2; 2;
2; 2; 2; 2; 2; 2; 2; 2; 2; 2; 2; 2; 1; 1; 1; 1;
1; 1; 1; 1; 1; 1; 1; 1; 1; 1; 2; 2; 2; 2; 2; 2;
2; 0; 2; 2; 2; 2; 2; 2; 2; 2; 2; 2; 1; 1; 1; 1;
1; 1; 1; 1; 1; 1; 1; 1; 1; 1; 1; 1; 1; 1; 1; 1;
1; 1; 1; 1; 1; 1; 2; 2; 2; 2; 2; 2; 2; 2; 2; 2;
2; 2; 2; 2; 2; 2; 2; 2; 2; 2; 2; 2; 2; 2; 2; 2].
(** [props_index] (S/char_set/props_data.hpp:1311-1326). *)
Definition props_80 : list Z := [
1; 0; 1; 1; 0; 0; 1; 0; 0; 1; 1; 0; 0; 1; 1; 1;
1; 0; 1; 1; 1; 1; 1; 1; 1; 1; 2; 2; 2; 2; 0; 2;
0; 2; 2; 2; 2; 2; 2; 2; 0; 2; 2; 2; 2; 2; 2; 2;
2; 2; 2; 2; 1; 1; 1; 1; 1; 1; 1; 1; 1; 1; 1; 1;
1; 1; 1; 1; 2; 2; 2; 2; 1; 1; 0; 1; 1; 1; 1; 0;
0; 1; 1; 1; 1; 1; 1; 1; 1; 0; 1; 1; 1; 1; 1; 1;
1; 0; 2; 2; 2; 2; 2; 2; 2; 2; 2; 2; 2; 2; 2; 2;
2; 2; 2; 2; 2; 2; 2; 2; 2; 2; 2; 2; 1; 1; 0; 1;
1; 1; 1; 0; 1; 1; 1; 1; 1; 0; 1; 0; 0; 0; 1; 1;
1; 1; 1; 1; 1; 0; 2; 2; 2; 2; 2; 2; 2; 2; 2; 2;
2; 2; 2; 2; 1; 1; 1; 1; 1; 1; 1; 1; 1; 1; 1; 1;
1; 1; 1; 1; 1; 1; 1; 1; 1; 1; 2; 2; 2; 2; 2; 2;
2; 2; 2; 2; 2; 2; 2; 2; 2; 2; 2; 2; 2; 2; 2; 2;
2; 2; 2; 2; 1; 1; 1; 1; 1; 1; 1; 1; 1; 1; 1; 1;
1; 1; 1; 1; 2; 2; 2; 2; 2; 2; 0; 0; 1; 1; 1; 1;
1; 1; 1; 1; 1; 1; 1; 1; 1; 1; 1; 1; 1; 1; 1; 1].
(** [props_index] (S/char_set/props_data.hpp:1327-1342). *)
Definition props_81 : list Z := [
1; 1; 1; 1; 1; 0x18; 2; 2; 2; 2; 2; 2; 2; 2; 2; 2;
2; 2; 2; 2; 2; 2; 2; 2; 2; 2; 2; 2; 2; 2; 2; 0x18;
2; 2; 2; 2; 2; 2; 1; 1; 1; 1; 1; 1; 1; 1; 1; 1;
1; 1; 1; 1; 1; 1; 1; 1; 1; 1; 1; 1; 1; 1; 1; 0x18;
2; 2; 2; 2; 2; 2; 2; 2; 2; 2; 2; 2; 2; 2; 2; 2;
2; 2; 2; 2; 2; 0x18; 2; 2; 2; 2; 2; 2; 1; 1; 1; 1;
1; 1; 1; 1; 1; 1; 1; 1; 1; 1; 1; 1; 2; 2; 2; 0x18;
2; 2; 2; 2; 2; 2; 1; 2; 0; 0; 0x49; 0x89; 0xc9; 0x109; 0x149; 0x189;
0x1c9; 0x209; 0x249; 0x289; 0x49; 0x89; 0xc9; 0x109; 0x149; 0x189; 0x1c9; 0x209; 0; 6; 6; 6;
6; 6; 6; 6; 6; 6; 6; 6; 6; 6; 6; 6; 0; 0; 0; 0;
0; 0; 0; 0; 0; 0; 0; 0; 0; 0; 0; 0; 6; 6; 6; 6;
6; 6; 6; 6; 6; 6; 6; 6; 6; 6; 6; 6; 6; 6; 6; 6;
6; 6; 6; 0x1b; 0x1b; 0x1b; 0x1b; 6; 6; 6; 6; 6; 6; 6; 6; 6;
6; 6; 6; 6; 6; 0x1b; 0x1b; 0x1b; 0x1b; 0x1b; 0x1b; 0x1b; 0x1b; 6; 0x1b; 0x1b;
0x1b; 0x1b; 0x1b; 0x1b; 0x1b; 0x1b; 0x1b; 0x1b; 6; 0x1b; 0x1b; 0x17; 0x17; 0x17; 0x17; 0x17;
0; 0; 0; 0; 0; 0; 0; 0; 0; 0; 0; 0; 0; 0; 0; 6].
(** [props_index] (S/char_set/props_data.hpp:1343-1358). *)
Definition props_82 : list Z := [
6; 6; 6; 6; 6; 6; 6; 0; 6; 6; 6; 6; 6; 6; 6; 6;
6; 6; 6; 6; 6; 6; 6; 6; 6; 0; 0; 6; 6; 6; 6; 6;
2; 2; 2; 2; 2; 2; 2; 2; 2; 2; 5; 2; 2; 2; 2; 2;
2; 2; 2; 2; 2; 2; 2; 2; 2; 2; 2; 2; 2; 2; 2; 0;
0; 0; 0; 0; 0; 2; 2; 2; 2; 2; 2; 0; 0; 0; 0; 0;
0; 0; 0; 0; 0; 0; 0; 0; 0; 0; 0; 0; 0; 0; 0; 0;
6; 6; 0; 6; 6; 0; 6; 6; 6; 6; 6; 0; 0; 0; 0; 0;
4; 4; 4; 4; 4; 4; 4; 4; 4; 4; 4; 4; 4; 4; 4; 4;
0; 0; 0; 0; 0; 0; 0; 0; 0; 0; 0; 0; 0; 0; 0; 6;
0; 0; 0; 0; 0; 0; 0; 0; 0; 0; 0; 0; 0; 0; 0; 0;
4; 4; 4; 4; 4; 4; 4; 4; 4; 4; 4; 4; 4; 4; 0; 0;
0; 0; 0; 0; 0; 0; 0; 0; 0; 0; 0; 0; 0; 0; 0; 0;
0x49; 0x89; 0xc9; 0x109; 0x149; 0x189; 0x1c9; 0x209; 0x249; 0x289; 0; 0; 0; 0; 5; 0x1b;
0; 0; 0; 0; 0; 0; 0; 0; 0; 0; 0; 0; 0; 0; 0; 0;
5; 5; 5; 5; 5; 5; 5; 5; 5; 5; 5; 5; 5; 0; 0; 0;
6; 6; 6; 6; 6; 6; 6; 4; 4; 4; 4; 4; 4; 4; 0; 0].
(** [props_index] (S/char_set/props_data.hpp:1359-1374). *)
Definition props_83 : list Z := [
5; 5; 5; 5; 5; 5; 5; 5; 5; 5; 5; 5; 5; 5; 6; 0;
0; 0; 0; 0; 0; 0; 0; 0; 0; 0; 0; 0; 0; 0; 0; 0;
5; 5; 5; 5; 5; 5; 5; 5; 5; 5; 5; 5; 6; 6; 6; 6;
0x49; 0x89; 0xc9; 0x109; 0x149; 0x189; 0x1c9; 0x209; 0x249; 0x289; 0; 0; 0; 0; 0; 0x19;
5; 5; 5; 5; 5; 5; 5; 5; 5; 5; 5; 4; 6; 6; 6; 6;
0x49; 0x89; 0xc9; 0x109; 0x149; 0x189; 0x1c9; 0x209; 0x249; 0x289; 0; 0; 0; 0; 0; 0;
5; 5; 5; 5; 5; 5; 5; 0; 5; 5; 5; 5; 0; 5; 5; 0;
5; 5; 5; 5; 5; 5; 5; 5; 5; 5; 5; 5; 5; 5; 5; 0;
5; 5; 5; 5; 5; 0; 0; 0x58b; 0x5cb; 0x60b; 0x64b; 0x68b; 0x6cb; 0x70b; 0x74b; 0x78b;
6; 6; 6; 6; 6; 6; 6; 0; 0; 0; 0; 0; 0; 0; 0; 0;
2; 2; 2; 2; 6; 6; 6; 6; 6; 6; 6; 4; 0; 0; 0; 0;
0x49; 0x89; 0xc9; 0x109; 0x149; 0x189; 0x1c9; 0x209; 0x249; 0x289; 0; 0; 0; 0; 0x17; 0x17;
1; 1; 2; 2; 2; 2; 2; 2; 2; 2; 2; 2; 2; 2; 2; 2;
2; 2; 2; 2; 2; 2; 2; 2; 2; 2; 2; 2; 2; 2; 2; 2;
0; 0; 0; 0; 0; 0; 0; 0; 0; 0; 0; 0; 0; 0; 0; 0;
0; 0x58b; 0x5cb; 0x60b; 0x64b; 0x68b; 0x6cb; 0x70b; 0x74b; 0x78b; 0x7cb; 0xa4b; 0xccb; 0xf4b; 0x11cb; 0x144b].
(** [props_index] (S/char_set/props_data.hpp:1375-1390). *)
Definition props_84 : list Z := [
0x78cb; 0x794b; 0x814b; 0x58b; 0x5cb; 0x60b; 0x64b; 0x68b; 0x6cb; 0x70b; 0x74b; 0x78b; 0x1b; 0x34cb; 0x344b; 0x3ccb;
0x19; 0x58b; 0x5cb; 0x788b; 0x78cb; 0; 0; 0; 0; 0; 0; 0; 0; 0; 0; 0;
0x16cb; 0x194b; 0x1bcb; 0x1e4b; 0x800b; 0x880b; 0x900b; 0x980b; 0xa00b; 0xa80b; 0xb00b; 0xb80b; 0x784b; 0x804b; 0x884b; 0x904b;
0x984b; 0xa04b; 0xa84b; 0xb04b; 0xb84b; 0x788b; 0x808b; 0x888b; 0x908b; 0x988b; 0xa08b; 0xa88b; 0xb08b; 0xb88b; 0x78cb; 0x80cb;
0x984b; 0xa04b; 0xa84b; 0xb04b; 0xb84b; 0x788b; 0x808b; 0x888b; 0x908b; 0x988b; 0xa08b; 0xa88b; 0xb08b; 0xb88b; 0x1b; 0x5cb;
0x60b; 0x64b; 0x68b; 0x6cb; 0x70b; 0x74b; 0x78b; 0x7cb; 0x900b; 0xa00b; 0x804b; 0x788b; 0x344b; 0x354b; 0; 0;
0; 0x58b; 0x5cb; 0x60b; 0x64b; 0x68b; 0x6cb; 0x70b; 0x74b; 0x78b; 0x7cb; 0xa4b; 0xccb; 0xf4b; 0x11cb; 0x144b;
0x16cb; 0x194b; 0x1bcb; 0x1e4b; 0x800b; 0x880b; 0x900b; 0x980b; 0xa00b; 0xa80b; 0xb00b; 0xb80b; 0x784b; 0x804b; 0x884b; 0x904b;
0; 0; 0; 0; 0; 0; 0; 0; 0; 0; 0; 0; 0; 0; 0; 0;
0x18; 0x18; 0; 0; 0; 0; 0; 0; 0; 0; 0; 0; 0; 0; 0; 0;
5; 5; 5; 5; 0; 5; 5; 5; 5; 5; 5; 5; 5; 5; 5; 5;
5; 5; 5; 5; 5; 5; 5; 5; 5; 5; 5; 5; 5; 5; 5; 5;
0; 5; 5; 0; 5; 0; 0; 5; 0; 5; 5; 5; 5; 5; 5; 5;
5; 5; 5; 0; 5; 5; 5; 5; 0; 5; 0; 5; 0; 0; 0; 0;
0; 0; 5; 0; 0; 0; 0; 5; 0; 5; 0; 5; 0; 5; 5; 5;
0; 5; 5; 0; 5; 0; 0; 5; 0; 5; 0; 5; 0; 5; 0; 5].
(** [props_index] (S/char_set/props_data.hpp:1391-1406). *)
Definition props_85 : list Z := [
0; 5; 5; 0; 5; 0; 0; 5; 5; 5; 5; 0; 5; 5; 5; 5;
5; 5; 5; 0; 5; 5; 5; 5; 0; 5; 5; 5; 5; 0; 5; 0;
5; 5; 5; 5; 5; 5; 5; 5; 5; 5; 0; 5; 5; 5; 5; 5;
5; 5; 5; 5; 5; 5; 5; 5; 5; 5; 5; 5; 0; 0; 0; 0;
0; 5; 5; 5; 0; 5; 5; 5; 5; 5; 0; 5; 5; 5; 5; 5;
5; 5; 5; 5; 5; 5; 5; 5; 5; 5; 5; 5; 0; 0; 0; 0;
0x1b; 0x1b; 0x1b; 0x1b; 0x1b; 0x1b; 0x1b; 0x1b; 0x1b; 0x1b; 0x1b; 0x1b; 0; 0; 0; 0;
0x1b; 0x1b; 0x1b; 0x1b; 0x1b; 0x1b; 0x1b; 0x1b; 0x1b; 0x1b; 0x1b; 0x1b; 0x1b; 0x1b; 0x1b; 0x1b;
0; 0x1b; 0x1b; 0x1b; 0x1b; 0x1b; 0x1b; 0x1b; 0x1b; 0x1b; 0x1b; 0x1b; 0x1b; 0x1b; 0x1b; 0x1b;
0; 0x1b; 0x1b; 0x1b; 0x1b; 0x1b; 0x1b; 0x1b; 0x1b; 0x1b; 0x1b; 0x1b; 0x1b; 0x1b; 0x1b; 0x1b;
0x2cb; 0x2cb; 0x30b; 0x34b; 0x38b; 0x3cb; 0x40b; 0x44b; 0x48b; 0x4cb; 0x50b; 0x54b; 0x54b; 0x1b; 0x1b; 0x1b;
0x1b; 0x1b; 0x1b; 0x1b; 0x1b; 0x1b; 0x1b; 0x1b; 0x1b; 0x1b; 0x1b; 0x1b; 0x1b; 0x1b; 0x1b; 0x1b;
0; 0; 0; 0; 0; 0; 0x1b; 0x1b; 0x1b; 0x1b; 0x1b; 0x1b; 0x1b; 0x1b; 0x1b; 0x1b;
0x1b; 0x1b; 0x1b; 0x1b; 0x1b; 0x1b; 0x1b; 0x1b; 0x1b; 0x1b; 0x1b; 0x1b; 0x1b; 0x1b; 0x1b; 0x1b;
0x1b; 0x1b; 0x1b; 0; 0; 0; 0; 0; 0; 0; 0; 0; 0; 0; 0; 0;
0x1b; 0x1b; 0x1b; 0x1b; 0x1b; 0x1b; 0x1b; 0x1b; 0x1b; 0x1b; 0x1b; 0x1b; 0x1b; 0x1b; 0x1b; 0x1b].
(** [props_index] (S/char_set/props_data.hpp:1407-1422). *)
Definition props_86 : list Z := [
0x1b; 0x1b; 0x1b; 0x1b; 0x1b; 0x1b; 0x1b; 0x1b; 0x1b; 0x1b; 0x1b; 0x1b; 0; 0; 0; 0;
0x1b; 0x1b; 0x1b; 0x1b; 0x1b; 0x1b; 0x1b; 0x1b; 0x1b; 0; 0; 0; 0; 0; 0; 0;
0x1b; 0x1b; 0; 0; 0; 0; 0; 0; 0; 0; 0; 0; 0; 0; 0; 0;
0x1b; 0x1b; 0x1b; 0x1b; 0x1b; 0x1b; 0; 0; 0; 0; 0; 0; 0; 0; 0; 0;
0; 0; 0; 0; 0; 0; 0; 0; 0; 0; 0; 0; 0; 0; 0; 0;
0x1b; 0x1b; 0x1b; 0x1b; 0x1b; 0x1b; 0x1b; 0x1b; 0x1b; 0x1b; 0x1b; 0x1b; 0x1b; 0x1b; 0x1b; 0x1b;
0x1b; 0x1b; 0x1b; 0x1b; 0x1b; 0x1b; 0x1b; 0x1b; 0x1b; 0x1b; 0x1b; 0x1a; 0x1a; 0x1a; 0x1a; 0x1a;
0x1b; 0x1b; 0x1b; 0x1b; 0x1b; 0x1b; 0x1b; 0x1b; 0x1b; 0x1b; 0x1b; 0x1b; 0x1b; 0; 0; 0;
0x1b; 0x1b; 0x1b; 0x1b; 0x1b; 0x1b; 0x1b; 0x1b; 0x1b; 0x1b; 0x1b; 0x1b; 0x1b; 0; 0; 0;
0x1b; 0x1b; 0x1b; 0x1b; 0x1b; 0x1b; 0x1b; 0x1b; 0x1b; 0x1b; 0x1b; 0x1b; 0x1b; 0x1b; 0x1b; 0x1b;
0x1b; 0x1b; 0x1b; 0x1b; 0x1b; 0x1b; 0x1b; 0; 0; 0; 0; 0x1b; 0x1b; 0x1b; 0x1b; 0x1b;
0x1b; 0x1b; 0x1b; 0x1b; 0x1b; 0x1b; 0x1b; 0x1b; 0x1b; 0x1b; 0x1b; 0x1b; 0x1b; 0x1b; 0x1b; 0x1b;
0x1b; 0x1b; 0x1b; 0x1b; 0x1b; 0x1b; 0; 0; 0; 0; 0; 0; 0x1b; 0x1b; 0x1b; 0x1b;
0x1b; 0x1b; 0x1b; 0x1b; 0x1b; 0x1b; 0x1b; 0x1b; 0; 0; 0; 0; 0x1b; 0; 0; 0;
0; 0; 0; 0; 0; 0; 0; 0; 0; 0; 0; 0; 0x1b; 0x1b; 0x1b; 0x1b;
0x1b; 0x1b; 0x1b; 0x1b; 0; 0; 0; 0; 0; 0; 0; 0; 0x1b; 0x1b; 0x1b; 0x1b].
(** [props_index] (S/char_set/props_data.hpp:1423-1438). *)
Definition props_87 : list Z := [
0x1b; 0x1b; 0x1b; 0x1b; 0x1b; 0x1b; 0; 0; 0; 0; 0; 0; 0x1b; 0x1b; 0x1b; 0x1b;
0x1b; 0x1b; 0x1b; 0x1b; 0; 0; 0; 0; 0; 0; 0; 0; 0x1b; 0x1b; 0x1b; 0x1b;
0x1b; 0x1b; 0x1b; 0x1b; 0x1b; 0x1b; 0x1b; 0x1b; 0x1b; 0x1b; 0x1b; 0x1b; 0x1b; 0x1b; 0; 0;
0x1b; 0x1b; 0; 0; 0; 0; 0; 0; 0; 0; 0; 0; 0; 0; 0; 0;
0x1b; 0x1b; 0x1b; 0x1b; 0x1b; 0x1b; 0x1b; 0x1b; 0x1b; 0x1b; 0x1b; 0x1b; 0x1b; 0x1b; 0; 0;
0x1b; 0x1b; 0x1b; 0x1b; 0x1b; 0x1b; 0x1b; 0x1b; 0x1b; 0x1b; 0x1b; 0x1b; 0x1b; 0; 0; 0;
0; 0; 0; 0; 0x1b; 0x1b; 0x1b; 0x1b; 0x1b; 0x1b; 0x1b; 0x1b; 0x1b; 0; 0; 0;
0; 0; 0; 0; 0x1b; 0x1b; 0x1b; 0x1b; 0x1b; 0x1b; 0x1b; 0x1b; 0x1b; 0x1b; 0x1b; 0x1b;
0x1b; 0x1b; 0x1b; 0x1b; 0x1b; 0x1b; 0x1b; 0x1b; 0x1b; 0x1b; 0x1b; 0x1b; 0x1b; 0x1b; 0x1b; 0x1b;
0x1b; 0x1b; 0; 0x1b; 0x1b; 0x1b; 0x1b; 0x1b; 0x1b; 0x1b; 0; 0; 0; 0; 0; 0;
0; 0; 0x1b; 0x1b; 0x1b; 0x1b; 0x1b; 0x1b; 0x1b; 0x1b; 0x1b; 0x1b; 0x1b; 0x1b; 0x1b; 0x1b;
0; 0; 0; 0; 0x1b; 0x1b; 0x1b; 0x1b; 0x1b; 0x1b; 0x1b; 0x1b; 0x1b; 0x1b; 0x1b; 0x1b;
0x1b; 0x1b; 0x1b; 0x1b; 0x1b; 0x1b; 0x1b; 0; 0x1b; 0x1b; 0x1b; 0x1b; 0x1b; 0x1b; 0x1b; 0x1b;
0x1b; 0x1b; 0x1b; 0x1b; 5; 0x705; 5; 5; 5; 5; 5; 5; 5; 5; 5; 5;
5; 5; 5; 5; 5; 5; 5; 5; 5; 5; 5; 5; 5; 5; 5; 5;
5; 5; 5; 5; 0x645; 5; 5; 5; 5; 5; 5; 5; 5; 5; 5; 5].
(** [props_index] (S/char_set/props_data.hpp:1439-1454). *)
Definition props_88 : list Z := [
5; 5; 5; 5; 5; 5; 5; 5; 5; 5; 5; 5; 5; 5; 5; 5;
5; 5; 0x645; 5; 5; 5; 5; 5; 5; 5; 5; 5; 5; 5; 5; 5;
5; 5; 5; 5; 5; 5; 5; 5; 5; 5; 5; 5; 5; 5; 5; 5;
5; 0x685; 5; 5; 5; 5; 5; 5; 5; 5; 5; 5; 5; 5; 5; 5;
5; 5; 5; 5; 5; 5; 5; 5; 5; 5; 5; 5; 5; 5; 5; 5;
5; 5; 5; 0xcc5; 5; 5; 5; 5; 5; 5; 5; 5; 0xf45; 5; 5; 5;
5; 5; 5; 5; 5; 5; 5; 5; 5; 5; 5; 5; 0xf45; 5; 5; 5;
5; 5; 5; 5; 5; 5; 5; 5; 5; 5; 0x6c5; 5; 5; 5; 5; 5;
5; 5; 5; 5; 5; 5; 5; 5; 5; 5; 5; 5; 5; 0x605; 5; 5;
5; 5; 5; 5; 5; 5; 5; 5; 5; 5; 5; 5; 5; 5; 5; 5;
5; 5; 5; 5; 5; 5; 5; 5; 5; 0x605; 5; 5; 5; 5; 5; 5;
5; 5; 5; 5; 5; 5; 5; 5; 5; 5; 5; 5; 5; 5; 5; 5;
5; 5; 5; 5; 0x605; 5; 5; 5; 5; 5; 5; 5; 5; 5; 5; 5;
5; 5; 5; 5; 5; 5; 5; 5; 5; 5; 5; 5; 5; 5; 5; 5;
5; 5; 5; 0x605; 5; 5; 5; 5; 5; 5; 5; 5; 5; 5; 5; 5;
5; 0x645; 5; 5; 5; 5; 5; 5; 5; 5; 5; 5; 5; 5; 5; 5].
(** [props_index] (S/char_set/props_data.hpp:1455-1469). *)
Definition props_89 : list Z := [
5; 5; 5; 5; 5; 5; 0; 0; 0; 0; 0; 0; 0; 0; 0; 0;
0; 0; 0; 0; 5; 5; 5; 5; 5; 5; 5; 5; 5; 5; 5; 5;
5; 5; 5; 5; 5; 0; 0; 0; 0; 0; 0; 0; 0; 0; 0; 0;
0; 0; 0; 0; 0; 0; 0; 0; 0; 0; 0; 0; 0; 0; 0; 0;
0; 0; 0; 0; 5; 5; 5; 5; 5; 5; 5; 5; 5; 5; 5; 5;
5; 5; 5; 5; 0x785; 5; 5; 5; 5; 5; 5; 5; 5; 5; 5; 5;
5; 5; 5; 5; 0x10; 0x10; 0x10; 0x10; 0x10; 0x10; 0x10; 0x10; 0x10; 0x10; 0x10; 0x10;
0x10; 0x10; 0x10; 0x10; 0x10; 0x10; 0x10; 0x10; 0x10; 0x10; 0x10; 0x10; 0x10; 0x10; 0x10; 0x10;
0x10; 0x10; 0x10; 0x10; 0; 0x10; 0; 0; 0; 0; 0; 0; 0; 0; 0; 0;
0; 0; 0; 0; 0; 0; 0; 0; 0; 0; 0; 0; 0; 0; 0; 0;
0; 0; 0; 0; 6; 6; 6; 6; 6; 6; 6; 6; 6; 6; 6; 6;
6; 6; 6; 6; 0; 0; 0; 0; 0; 0; 0; 0; 0; 0; 0; 0;
0; 0; 0; 0; 0x11; 0x11; 0x11; 0x11; 0x11; 0x11; 0x11; 0x11; 0x11; 0x11; 0x11; 0x11;
0x11; 0x11; 0x11; 0x11; 0x11; 0x11; 0x11; 0x11; 0x11; 0x11; 0x11; 0x11; 0x11; 0x11; 0x11; 0x11;
0x11; 0x11; 0; 0; 0; 0; 0; 0].
(** [props_index] (S/char_set/props_data.hpp:30-1470). *)
Definition props_index : list Z := concat [
props_0; props_1; props_2; props_3; props_4; props_5; props_6; props_7; props_8; props_9;
props_10; props_11; props_12; props_13; props_14; props_15; props_16; props_17; props_18; props_19;
props_20; props_21; props_22; props_23; props_24; props_25; props_26; props_27; props_28; props_29;
props_30; props_31; props_32; props_33; props_34; props_35; props_36; props_37; props_38; props_39;
props_40; props_41; props_42; props_43; props_44; props_45; props_46; props_47; props_48; props_49;
props_50; props_51; props_52; props_53; props_54; props_55; props_56; props_57; props_58; props_59;
props_60; props_61; props_62; props_63; props_64; props_65; props_66; props_67; props_68; props_69;
props_70; props_71; props_72; props_73; props_74; props_75; props_76; props_77; props_78; props_79;
props_80; props_81; props_82; props_83; props_84; props_85; props_86; props_87; props_88; props_89].
