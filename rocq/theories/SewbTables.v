(** * src/se_wbsm4/se_wbsm4_local.c: the stored affine maps

    se_wbsm4_local.c:3-40784 SE_initial assigns A[k] and B[k], k = 0 .. 2038, one row (M[0] first) or vector per
    line.  Here each entry is [e m0 .. m7 v] with the rows and the vector of the assignment, in groups of 64. *)
From Verif Require Import Base MatModel.
Local Open Scope N_scope.
Definition e (m0 m1 m2 m3 m4 m5 m6 m7 v : N) : aff := mkaff [m0; m1; m2; m3; m4; m5; m6; m7] v.
Definition A_0 : list aff := [
  e 0x05 0x20 0x86 0x5c 0x94 0x66 0x02 0x7f 0x00;
  e 0xc4 0xd9 0x92 0xe6 0x65 0x9d 0x02 0xde 0x00;
  e 0xf1 0x95 0x40 0x2a 0x7c 0xd3 0x02 0x53 0x00;
  e 0x5d 0x5b 0x95 0x3e 0x50 0x1f 0x02 0xee 0x00;
  e 0x19 0x86 0x61 0x8e 0x3f 0xc2 0x02 0x75 0x00;
  e 0xb7 0x61 0xd9 0xf5 0x55 0x27 0x02 0xe3 0x00;
  e 0x43 0x92 0x5b 0xc7 0xbf 0xd4 0x02 0x89 0x00;
  e 0x02 0xde 0x21 0x2a 0xcc 0x8e 0x27 0x13 0x23;
  e 0xb3 0xec 0x29 0x4a 0x69 0x9b 0x27 0xc9 0xaf;
  e 0xa5 0x0c 0xb5 0x6e 0xf4 0x5c 0x27 0x98 0xa2;
  e 0xea 0x0f 0x0c 0x66 0x7f 0x78 0x27 0xdd 0x4b;
  e 0xc4 0xb5 0xde 0xca 0x97 0xc2 0x27 0xc0 0x4a;
  e 0x9d 0x21 0xab 0xb6 0xa6 0x56 0x27 0xa3 0xe3;
  e 0xf5 0xab 0xec 0x67 0x7d 0xfb 0x27 0x48 0xde;
  e 0x52 0x29 0x0f 0x54 0x62 0x79 0x27 0x93 0x67;
  e 0x29 0x20 0xb1 0xfd 0xb5 0x1b 0x86 0x07 0x07;
  e 0x12 0x46 0x52 0x25 0x8d 0x7d 0x86 0xdc 0xe2;
  e 0x42 0xc8 0x20 0x82 0xc2 0x75 0x86 0x5c 0x9a;
  e 0xa1 0x52 0xe9 0x93 0x4a 0xef 0x86 0x9b 0x5f;
  e 0x74 0xe9 0xc8 0x64 0xdd 0xd2 0x86 0x90 0x06;
  e 0x4f 0xb4 0x96 0x01 0x63 0x8f 0x86 0x70 0xae;
  e 0x1c 0xb1 0xb4 0x73 0xcf 0x0c 0x86 0x43 0x1b;
  e 0xff 0x96 0x46 0x59 0xc1 0x2b 0x86 0x39 0xe6;
  e 0x69 0xc8 0x49 0x8d 0xb6 0xa6 0xd7 0x19 0xbd;
  e 0xc5 0x98 0x83 0xda 0xfa 0x21 0xd7 0x26 0x9d;
  e 0x07 0x83 0x33 0x99 0x3e 0xed 0xd7 0xeb 0x1c;
  e 0x7c 0x5b 0xc8 0x28 0x1c 0xe2 0xd7 0x8b 0x04;
  e 0x22 0x18 0x98 0xae 0x1a 0x76 0xd7 0xb3 0x9c;
  e 0x06 0x33 0x3d 0xc9 0x73 0x8a 0xd7 0xc6 0xb5;
  e 0xbf 0x49 0x18 0x55 0x42 0xf0 0xd7 0xd2 0x59;
  e 0x4c 0x3d 0x5b 0x03 0x45 0x53 0xd7 0x2f 0x48;
  e 0x7f 0xe5 0x96 0x76 0xa1 0x87 0x34 0x0d 0xf7;
  e 0x1d 0x40 0x3d 0xbf 0xf9 0x22 0x34 0xfe 0xb3;
  e 0x21 0x7e 0x40 0xf0 0x19 0x28 0x34 0x35 0x43;
  e 0xb8 0x0b 0x83 0xf2 0x93 0x69 0x34 0x1e 0x03;
  e 0xdc 0x3d 0x0b 0x24 0x80 0x6b 0x34 0xd3 0xd2;
  e 0xda 0xcc 0x7e 0x6d 0xff 0xae 0x34 0x8f 0x7f;
  e 0x8a 0x96 0xcc 0xb5 0x8e 0xc0 0x34 0x1a 0x7a;
  e 0x77 0x83 0xe5 0x03 0x23 0xd5 0x34 0xaa 0xa6;
  e 0x6d 0x43 0x1b 0xf3 0x5c 0x7b 0xe3 0x1a 0x7e;
  e 0x07 0x42 0x9b 0xa7 0xd1 0x99 0xe3 0xcc 0x2f;
  e 0x8d 0x15 0xff 0x2c 0xb0 0x2d 0xe3 0xf1 0x13;
  e 0xba 0x7d 0x15 0xac 0x5b 0xa6 0xe3 0x2b 0x1f;
  e 0xdc 0xff 0x43 0xa4 0x8c 0x24 0xe3 0x49 0xbf;
  e 0x61 0x1b 0xf5 0x97 0xe5 0xc0 0xe3 0x75 0xc2;
  e 0xb5 0xf5 0x42 0xa9 0x36 0xcd 0xe3 0xca 0x1a;
  e 0x55 0x9b 0x7d 0xad 0x39 0xa3 0xe3 0x19 0x4f;
  e 0x99 0x0a 0xb9 0xfc 0x58 0x9c 0xcd 0x35 0x57;
  e 0x07 0x56 0xcc 0x4c 0xf6 0xc0 0xcd 0x23 0x33;
  e 0xa9 0xb9 0xc8 0x32 0xf9 0xe2 0xcd 0x73 0x17;
  e 0xf2 0xa8 0x56 0xf7 0xe0 0xf3 0xcd 0xf4 0x87;
  e 0x91 0xc8 0x86 0x90 0x79 0x5e 0xcd 0xe6 0x02;
  e 0xe3 0xcc 0x0a 0x2c 0x8b 0x97 0xcd 0x0e 0xfa;
  e 0xb8 0x86 0x02 0x7f 0x5f 0xdd 0xcd 0xd2 0x27;
  e 0x0f 0x02 0xa8 0x7b 0x1a 0x94 0xcd 0x66 0x5e;
  e 0x76 0x48 0x56 0xa9 0x13 0x91 0xa7 0x1c 0x17;
  e 0x8d 0x56 0x40 0x63 0x4e 0x28 0xa7 0x8e 0x02;
  e 0xaf 0x98 0x78 0x5e 0x93 0x41 0xa7 0xb2 0x87;
  e 0xf3 0x78 0x49 0x14 0xb0 0x06 0xa7 0x79 0x33;
  e 0xa6 0x40 0x02 0x53 0xc6 0x99 0xa7 0x3a 0x27;
  e 0xa3 0x02 0x98 0x4c 0x6c 0x7c 0xa7 0xd3 0x5e;
  e 0xdd 0x52 0x48 0xe2 0x35 0x2c 0xa7 0x5a 0x57;
  e 0x7f 0x49 0x52 0xda 0xe1 0x90 0xa7 0x4d 0xfa;
  e 0xa6 0xd8 0x36 0x97 0x0e 0x20 0xe2 0x08 0x49].
Definition A_1 : list aff := [
  e 0x28 0x36 0x64 0x61 0x11 0x2c 0xe2 0xbd 0x85;
  e 0x69 0xab 0x19 0x6d 0x4f 0x53 0xe2 0x84 0xf8;
  e 0xcd 0xe6 0xef 0xf7 0x67 0xfc 0xe2 0xa2 0xa4;
  e 0xd7 0x19 0xd8 0xda 0x57 0x03 0xe2 0xa5 0x70;
  e 0x32 0xd3 0xab 0xb4 0xc3 0xc9 0xe2 0xa0 0x24;
  e 0x5e 0xef 0xd3 0x8a 0xc6 0x17 0xe2 0x25 0xd0;
  e 0x91 0x64 0xe6 0x6a 0x65 0x9c 0xe2 0x51 0x14;
  e 0xc5 0x38 0x7d 0x21 0xfb 0xa3 0x6f 0x36 0xd4;
  e 0x5e 0x11 0x8b 0x4c 0xd0 0x8a 0x6f 0xeb 0xd4;
  e 0x77 0xbb 0x71 0x6b 0x19 0x20 0x6f 0xb7 0xa1;
  e 0x63 0x73 0x11 0x34 0x8c 0x87 0x6f 0xd9 0xec;
  e 0x95 0x7d 0x09 0x41 0x47 0x89 0x6f 0x65 0x99;
  e 0xec 0x09 0x73 0xf2 0x5d 0x92 0x6f 0xf1 0xa1;
  e 0x97 0x71 0x38 0xe9 0x3c 0x85 0x6f 0x40 0xec;
  e 0x61 0x8b 0xbb 0x07 0x98 0x7f 0x6f 0x08 0x99;
  e 0x5a 0x7f 0xb2 0x96 0x21 0xf6 0xd0 0x34 0x34;
  e 0x0a 0x2c 0x0e 0x23 0xe9 0xa5 0xd0 0x90 0x58;
  e 0x6c 0xf9 0xa6 0xc3 0x2b 0xa0 0xd0 0x73 0xf1;
  e 0x35 0x0e 0x7f 0x43 0x8c 0x57 0xd0 0x0d 0x1d;
  e 0xc2 0xb2 0x7c 0x3e 0x3a 0xeb 0xd0 0x68 0xe1;
  e 0x83 0x7c 0xf9 0x5d 0x17 0xf5 0xd0 0x99 0xf9;
  e 0x9b 0x1c 0x2c 0x37 0x4d 0x45 0xd0 0x4f 0x78;
  e 0xd3 0xa6 0x1c 0xb1 0x0f 0x2f 0xd0 0xb4 0xe0;
  e 0xa4 0xa1 0xf1 0x77 0x5b 0xbf 0xa9 0xab 0x6d;
  e 0x28 0xc7 0xa1 0x03 0xc3 0x70 0xa9 0xd4 0xa0;
  e 0x14 0xf1 0xb2 0x32 0x6c 0x46 0xa9 0xc1 0x7d;
  e 0xa3 0x7a 0x8f 0xb8 0xc4 0xcd 0xa9 0x54 0x30;
  e 0x9f 0xfb 0x82 0x97 0xc2 0x4c 0xa9 0xf6 0xed;
  e 0xba 0x82 0x7a 0xe2 0x44 0x9c 0xa9 0x3f 0x55;
  e 0x87 0xb2 0xfb 0xe9 0x60 0xac 0xa9 0x33 0x64;
  e 0x99 0x8f 0xc7 0xcb 0xd6 0x91 0xa9 0xb9 0x5c;
  e 0x0f 0xe7 0x6c 0x94 0xef 0xc9 0xae 0x7d 0x54;
  e 0x6d 0x2f 0xe7 0x2d 0x39 0xaf 0xae 0xa0 0x28;
  e 0x34 0x35 0x4f 0xf2 0x02 0xb5 0xae 0x9d 0xc4;
  e 0x21 0xee 0x35 0xe3 0x3f 0xc0 0xae 0xf4 0x21;
  e 0x28 0x4f 0x2f 0x70 0x73 0x61 0xae 0x0c 0x80;
  e 0xed 0xf6 0xee 0xa4 0xc7 0x76 0xae 0x57 0x5d;
  e 0x06 0x68 0xf6 0x87 0x0d 0x46 0xae 0xab 0xf5;
  e 0xb4 0x6c 0x68 0x55 0x52 0xec 0xae 0xea 0xb1;
  e 0x87 0xc3 0x13 0x89 0x36 0xe9 0xd5 0xea 0x69;
  e 0x55 0xbb 0x3a 0x8d 0x7a 0x91 0xd5 0x5a 0x3d;
  e 0xad 0x11 0xdb 0x6b 0xd3 0x3b 0xd5 0xc7 0xc8;
  e 0x34 0x0d 0xc3 0xf0 0x86 0xf2 0xd5 0x75 0xe8;
  e 0xcb 0x3a 0x11 0xdd 0x49 0xc5 0xd5 0x68 0x71;
  e 0x03 0x13 0xbb 0x95 0xe7 0xec 0xd5 0xb9 0xc0;
  e 0xfc 0xdb 0x43 0x92 0xfd 0x24 0xd5 0x5b 0x2c;
  e 0x7f 0x43 0x0d 0x90 0x4a 0x69 0xd5 0x5d 0xe9;
  e 0x98 0xad 0x4e 0xdb 0x34 0x8c 0x64 0xd5 0xab;
  e 0x75 0x1a 0xad 0x1e 0x80 0x5f 0x64 0xc7 0x96;
  e 0x59 0x4e 0x70 0xce 0xcf 0x0b 0x64 0x31 0xda;
  e 0x1c 0x27 0xf3 0x08 0x04 0x62 0x64 0x79 0x3f;
  e 0xb9 0x0f 0x27 0x93 0xba 0x2e 0x64 0x32 0xd7;
  e 0x3a 0x70 0x36 0x44 0x9c 0x51 0x64 0x61 0x12;
  e 0x1b 0xf3 0x1a 0x49 0x76 0xd2 0x64 0xa7 0x56;
  e 0x96 0x74 0xf0 0xfb 0x48 0x9a 0x79 0x59 0x58;
  e 0xb0 0xae 0x74 0xc1 0xad 0x39 0x79 0xaf 0x78;
  e 0x54 0x14 0xe7 0x58 0x6f 0x83 0x79 0x87 0xf1;
  e 0x78 0x08 0x14 0xf1 0x47 0xe6 0x79 0xb2 0xf9;
  e 0x04 0xe7 0xae 0xa0 0x8f 0x09 0x79 0xb9 0xe0;
  e 0x27 0xdd 0x08 0x2a 0x4c 0x4a 0x79 0x32 0xe1;
  e 0xea 0x75 0xdd 0x3d 0xf9 0x9b 0x79 0xbc 0x34;
  e 0xc3 0xf0 0x75 0x5d 0xf7 0x67 0x79 0x8d 0x1d;
  e 0x78 0x76 0x71 0x37 0x95 0x04 0x54 0x14 0xfb;
  e 0x36 0x1b 0x94 0x4a 0xef 0x3d 0x54 0xf9 0xe7].
Definition A_2 : list aff := [
  e 0x5c 0x5f 0x76 0xb0 0xa1 0x79 0x54 0x01 0xf6;
  e 0xb6 0x28 0x13 0xbd 0x97 0x5a 0x54 0x20 0xbe;
  e 0x7a 0x13 0xb8 0x58 0x51 0x35 0x54 0x3f 0xff;
  e 0x0a 0xb8 0x1b 0x2f 0x17 0xca 0x54 0xfc 0x6b;
  e 0xc4 0x94 0x5f 0x83 0x41 0xe6 0x54 0xba 0x63;
  e 0x10 0x71 0x28 0xd0 0x4b 0x57 0x54 0xe1 0xd6;
  e 0xcc 0x05 0x32 0x30 0x3d 0x51 0x26 0x31 0x70;
  e 0xfa 0x9c 0x05 0x29 0x6b 0xee 0x26 0x22 0xf8;
  e 0x60 0x32 0xbb 0x59 0xad 0x40 0x26 0x7c 0x49;
  e 0x98 0xf5 0xda 0x8c 0x57 0xa1 0x26 0xb3 0xa4;
  e 0x68 0x1f 0x9c 0x48 0x35 0x4b 0x26 0xb1 0x24;
  e 0x88 0x06 0xf5 0xab 0x55 0x74 0x26 0xec 0x14;
  e 0x3c 0xbb 0x06 0x86 0x79 0xef 0x26 0x67 0x85;
  e 0x12 0xda 0x1f 0x8f 0xb5 0xa8 0x26 0xc0 0xd0;
  e 0x03 0x12 0x9a 0xf2 0xfd 0x72 0x70 0xc6 0x8b;
  e 0xa9 0xab 0x45 0x97 0xe0 0xcb 0x70 0x74 0x47;
  e 0xaf 0x4e 0xd8 0xcd 0x54 0x5e 0x70 0x3d 0xeb;
  e 0xbf 0x45 0x12 0x17 0xf5 0x55 0x70 0x56 0x0e;
  e 0xb4 0x9a 0x01 0x6f 0x83 0x8a 0x70 0x43 0x9f;
  e 0xc9 0x01 0x4e 0xfc 0x51 0x61 0x70 0xce 0x3b;
  e 0xa4 0x81 0xab 0xd5 0x52 0x91 0x70 0x38 0x37;
  e 0x63 0xd8 0x81 0x89 0x3c 0xb8 0x70 0x1c 0xcf;
  e 0xcc 0xbe 0x6d 0x3f 0x6e 0xf4 0x8f 0x1a 0x3c;
  e 0xee 0x6d 0xb7 0x1b 0x07 0xa8 0x8f 0xe3 0xf0;
  e 0x3a 0x1d 0xbe 0x8c 0x76 0xd8 0x8f 0x14 0x05;
  e 0x4b 0xb7 0xc9 0xd9 0x5d 0xfd 0x8f 0x02 0x61;
  e 0x01 0x7a 0x1d 0x47 0x81 0x30 0x8f 0x0a 0x8d;
  e 0x86 0x39 0x7c 0x64 0x3d 0x73 0x8f 0x58 0xa5;
  e 0x2b 0x7c 0x7a 0x13 0x91 0xb9 0x8f 0xb8 0x51;
  e 0xff 0xc9 0x39 0xce 0x6f 0x0c 0x8f 0x8a 0xd1;
  e 0xa3 0x13 0x54 0x20 0x08 0x4c 0x9c 0xe5 0x45;
  e 0xa9 0x54 0x73 0x77 0xcf 0x97 0x9c 0x5a 0x29;
  e 0x21 0x2a 0x13 0xc0 0x23 0xe9 0x9c 0x4a 0x20;
  e 0xe2 0xa2 0x7d 0x6d 0x9a 0x61 0x9c 0x9d 0x18;
  e 0x6a 0x1f 0x42 0x85 0xea 0xdc 0x9c 0x4e 0x11;
  e 0xfc 0x7d 0x1f 0x34 0xee 0x22 0x9c 0x48 0x08;
  e 0xcd 0x73 0xa2 0x7b 0x49 0x2c 0x9c 0xce 0xd5;
  e 0x92 0x42 0x2a 0xac 0x33 0x1d 0x9c 0x3c 0x98;
  e 0x81 0x5b 0xd7 0x2f 0x12 0xc3 0x0a 0x2b 0xad;
  e 0x16 0x48 0xa7 0x5a 0x08 0xd0 0x0a 0x4b 0x15;
  e 0x19 0xcc 0xa4 0xc4 0x64 0x54 0x0a 0x2e 0x79;
  e 0x09 0x46 0x5b 0xcf 0x72 0xd4 0x0a 0x55 0xc9;
  e 0x9b 0xa7 0xcc 0xca 0x9c 0x35 0x0a 0x2c 0x25;
  e 0xe8 0xd7 0x48 0xa5 0x6d 0x45 0x0a 0x53 0x40;
  e 0x7a 0xa4 0x47 0x38 0x89 0x36 0x0a 0xb8 0xd9;
  e 0x8e 0x47 0x46 0x23 0x74 0xdf 0x0a 0xd6 0xb4;
  e 0x4e 0x48 0x20 0xc4 0x0c 0x43 0xb1 0xfd 0x1e;
  e 0x1f 0x34 0x48 0x9d 0xe3 0x8e 0xb1 0xc0 0x8a;
  e 0x04 0x3b 0xcc 0x09 0xa9 0x81 0xb1 0xbf 0xa3;
  e 0x35 0xbc 0x95 0xb0 0xe7 0xb7 0xb1 0x12 0x16;
  e 0xa5 0x95 0x33 0x5c 0x32 0x2f 0xb1 0x6a 0x83;
  e 0xbe 0x20 0xbc 0xc3 0xc9 0x9a 0xb1 0xaf 0x92;
  e 0x3e 0xcc 0x34 0x1a 0x8c 0xc7 0xb1 0xd8 0xcb;
  e 0x5e 0x44 0x7e 0x9f 0x88 0x77 0x61 0x8b 0xe2;
  e 0x70 0x3d 0x44 0x97 0x5a 0x6f 0x61 0x31 0xe6;
  e 0xfc 0x7e 0x48 0x24 0xb6 0x2c 0x61 0xb0 0x5f;
  e 0xae 0xa0 0xb9 0x87 0xaa 0xf2 0x61 0x5d 0x1b;
  e 0x22 0xb1 0x86 0x07 0x27 0xe3 0x61 0x8e 0x9a;
  e 0x6d 0x86 0xa0 0x72 0xc6 0xb5 0x61 0x1b 0x07;
  e 0x9c 0x48 0xb1 0xc0 0xf4 0x7b 0x61 0x59 0x06;
  e 0xaf 0xb9 0x3d 0x7f 0xdb 0x8a 0x61 0xfa 0xae;
  e 0x8c 0x2c 0x04 0x93 0x41 0x47 0xa1 0x9f 0xd0;
  e 0xd8 0x04 0x6a 0xb9 0x58 0xce 0xa1 0x83 0x24;
  e 0xa8 0xc7 0x2c 0xe4 0xbd 0x0d 0xa1 0x81 0xa4].
Definition A_3 : list aff := [
  e 0x26 0xc0 0xc7 0x30 0xbf 0xab 0xa1 0x03 0x14;
  e 0x12 0xbe 0xc0 0xd9 0x23 0x74 0xa1 0x52 0x85;
  e 0x4d 0x6a 0xb7 0x2b 0xaf 0x01 0xa1 0x63 0xf8;
  e 0xe7 0xed 0xbe 0x42 0xf0 0x86 0xa1 0x94 0x49;
  e 0x62 0xb7 0xed 0xef 0x67 0x7d 0xa1 0x9a 0x70;
  e 0x7e 0xe7 0x07 0xbe 0xa8 0x1a 0x6c 0xa1 0x6b;
  e 0xb7 0x08 0x41 0xa0 0xc6 0xf5 0x6c 0xe5 0x63;
  e 0x83 0x2e 0xac 0xe8 0x5b 0xd3 0x6c 0xf9 0xfb;
  e 0x81 0x7b 0xe7 0xc3 0xec 0xea 0x6c 0x94 0xff;
  e 0x10 0x41 0x2e 0x9b 0xe2 0xd0 0x6c 0x53 0xf6;
  e 0xbb 0x07 0x08 0xeb 0xda 0x96 0x6c 0x21 0xe7;
  e 0x2a 0xac 0x3c 0x4e 0xb8 0x3d 0x6c 0x77 0xd6;
  e 0x4a 0x3c 0x7b 0x67 0x59 0xc1 0x6c 0x40 0xbe;
  e 0x5b 0xcf 0x55 0xd6 0x52 0x71 0xe0 0x5a 0xa5;
  e 0x2b 0x55 0xca 0x3a 0xfc 0x0b 0xe0 0xd5 0x51;
  e 0x13 0xc0 0x4a 0x3c 0x32 0x9e 0xe0 0x7b 0x05;
  e 0xde 0xca 0xc0 0x98 0x1a 0x74 0xe0 0x67 0x8d;
  e 0x60 0xf1 0xa6 0x40 0x19 0x4f 0xe0 0x02 0x61;
  e 0x75 0x6d 0xf1 0x5f 0x41 0x33 0xe0 0x53 0xf0;
  e 0xe5 0x4a 0x6d 0x50 0xb1 0xf4 0xe0 0x81 0x3c;
  e 0x4d 0xa6 0xcf 0xe7 0x6f 0xf8 0xe0 0xa3 0xd1;
  e 0x0d 0x6e 0x95 0x84 0x38 0x3c 0x33 0x5c 0x02;
  e 0x2e 0xe9 0x6e 0x9e 0x7b 0x88 0x33 0x85 0x17;
  e 0x5f 0x83 0xba 0xf9 0x9b 0xd1 0x33 0xd0 0x33;
  e 0x60 0x95 0x02 0xee 0xb5 0xf4 0x33 0x14 0x27;
  e 0x01 0xba 0xbd 0x30 0x77 0xdb 0x33 0x69 0xfa;
  e 0xb2 0xbd 0xe9 0x26 0xea 0xef 0x33 0xc1 0x57;
  e 0x4f 0xa7 0x83 0x12 0x8a 0xc6 0x33 0x99 0x87;
  e 0xe0 0x02 0xa7 0x3a 0x7a 0x50 0x33 0x1f 0x5e;
  e 0x74 0xa4 0x3d 0x29 0x69 0x1e 0x0b 0x24 0x7f;
  e 0x51 0xbd 0xb4 0xfe 0xb7 0x0c 0x0b 0xc2 0xd2;
  e 0xce 0xb4 0x56 0xf8 0xa3 0x0e 0x0b 0x85 0x03;
  e 0xe0 0x67 0xa4 0x5f 0xc7 0xd6 0x0b 0xa2 0x7a;
  e 0x64 0x61 0xbd 0x08 0x4c 0xdb 0x0b 0x8a 0xb3;
  e 0x8b 0x56 0xcb 0xe1 0x38 0xe7 0x0b 0x39 0xa6;
  e 0x3a 0x3d 0x61 0xfa 0x43 0x8c 0x0b 0xe8 0x43;
  e 0xde 0xcb 0x67 0x68 0x8d 0x71 0x0b 0x91 0xf7;
  e 0x16 0xb2 0xed 0xc3 0x74 0x52 0xbe 0x42 0x76;
  e 0xc8 0xc5 0xb2 0x27 0xba 0x9b 0xbe 0x8d 0xa7;
  e 0x10 0xed 0xfa 0x57 0x87 0xb3 0xbe 0x46 0xd3;
  e 0xf6 0x51 0x6b 0xa5 0x4f 0xb1 0xbe 0xff 0x0a;
  e 0x15 0xf9 0xc5 0xb6 0x71 0x19 0xbe 0xd1 0xc6;
  e 0xf5 0xfa 0x1d 0x8e 0xf4 0x1a 0xbe 0x8c 0x82;
  e 0x96 0x1d 0x51 0x9a 0x61 0x43 0xbe 0xb5 0x0f;
  e 0x4e 0x6b 0xf9 0x0a 0xe2 0x35 0xbe 0x20 0x36;
  e 0x58 0x0b 0x20 0xf6 0x4b 0x43 0x83 0x8c 0x16;
  e 0x31 0x98 0xa7 0xd3 0xd1 0xd0 0x83 0x12 0x8e;
  e 0x10 0x62 0x2d 0xb3 0xe4 0x2a 0x83 0x2e 0xcb;
  e 0x09 0x61 0x0b 0xe8 0xd5 0xaa 0x83 0xf2 0x92;
  e 0xc2 0xa7 0x62 0x4a 0x32 0x6c 0x83 0x7c 0xa3;
  e 0xcf 0x20 0x98 0xf5 0xed 0xeb 0x83 0xda 0x83;
  e 0x04 0x2d 0xb9 0x1f 0x89 0xe6 0x83 0x9f 0x8a;
  e 0x79 0xb9 0x61 0x5d 0xfd 0xf1 0x83 0xf8 0x1e;
  e 0x6f 0x08 0x6c 0x21 0x26 0x34 0x8a 0x4b 0x51;
  e 0x61 0x31 0x08 0xc0 0x57 0x87 0x8a 0xe8 0xa5;
  e 0xc9 0xc4 0xce 0x92 0xf1 0x72 0x8a 0x02 0x61;
  e 0x53 0x2b 0xc4 0xb5 0x1b 0x17 0x8a 0xde 0xf0;
  e 0x70 0xce 0x31 0xd5 0x29 0xf2 0x8a 0x93 0xd1;
  e 0xd7 0x2f 0x2b 0x55 0x56 0x99 0x8a 0xca 0x3c;
  e 0x4c 0xd1 0x2f 0xf7 0x9e 0xed 0x8a 0x3a 0x05;
  e 0x7f 0x6c 0xd1 0x3b 0x7a 0xda 0x8a 0x96 0x8d;
  e 0xff 0x2c 0xf1 0x2b 0x72 0xde 0x88 0x97 0xf8;
  e 0x3c 0x6a 0x9d 0xfe 0x07 0x98 0x88 0x06 0xd0;
  e 0x49 0xf1 0xa9 0xab 0x0a 0x8b 0x88 0x45 0x70].
Definition A_4 : list aff := [
  e 0x33 0x5c 0x6a 0x12 0x96 0x26 0x88 0x1a 0xa4;
  e 0xce 0xa9 0x4a 0xdb 0x69 0x5b 0x88 0xbf 0x49;
  e 0x9e 0x9d 0x2c 0x0b 0x5a 0xe7 0x88 0x18 0x24;
  e 0xe4 0x4a 0x1d 0x40 0x4e 0x30 0x88 0x3d 0x85;
  e 0x0d 0x1d 0x5c 0x74 0x94 0xef 0x88 0xdc 0x14;
  e 0xf2 0xc2 0xf4 0x24 0xc7 0xdd 0x94 0x10 0xbc;
  e 0xf3 0xbb 0x26 0x7c 0x4e 0xa4 0x94 0xdf 0x35;
  e 0x7b 0x26 0xc3 0x2d 0x2b 0xad 0x94 0x40 0x60;
  e 0xf0 0x1b 0xc2 0xa7 0x08 0x90 0x94 0x62 0xc1;
  e 0xcd 0xf4 0xbb 0xfc 0x0b 0x7f 0x94 0x8c 0xd8;
  e 0xed 0xc3 0x42 0x8d 0xfb 0xdc 0x94 0x9a 0x50;
  e 0xec 0xa5 0x1b 0x5e 0xe6 0xba 0x94 0x4a 0xac;
  e 0x46 0x42 0xa5 0x69 0xbc 0xc9 0x94 0x25 0x0c;
  e 0xd3 0x1d 0x8f 0x0a 0x70 0xd4 0xc7 0xcb 0xbb;
  e 0x80 0xc6 0x1d 0x38 0x3c 0xc8 0xc7 0x1b 0x5b;
  e 0x1f 0x8f 0xc0 0xb3 0x0d 0x81 0xc7 0x30 0xc3;
  e 0x11 0x1e 0x6b 0x16 0xfe 0x10 0xc7 0x68 0x53;
  e 0x8e 0x59 0x7f 0x54 0x08 0x57 0xc7 0x4d 0x86;
  e 0x1a 0x7f 0x1e 0x52 0x8d 0xb6 0xc7 0xa7 0xb2;
  e 0xb1 0xc0 0x59 0xb0 0x2d 0x09 0xc7 0x87 0x9b;
  e 0x78 0x6b 0xc6 0xe6 0x17 0xa2 0xc7 0x22 0xaa;
  e 0x78 0xfd 0xac 0x04 0x33 0xd3 0x80 0xc6 0xa9;
  e 0x56 0x74 0xfc 0x7a 0x44 0x5a 0x80 0xe1 0xe4;
  e 0xeb 0x69 0xfd 0x1f 0xb5 0xc7 0x80 0xbf 0x81;
  e 0xf1 0x2b 0x97 0x18 0x0e 0x05 0x80 0x40 0x4c;
  e 0x45 0x97 0x74 0x38 0xec 0x39 0x80 0x6f 0xb9;
  e 0x15 0xac 0x2b 0x19 0xaf 0x02 0x80 0xf3 0xfd;
  e 0xdf 0x8c 0x69 0xc8 0xf9 0xa2 0x80 0x49 0x01;
  e 0xbb 0xfc 0x8c 0x10 0x76 0x52 0x80 0x8d 0xc5;
  e 0xd2 0xe6 0x4c 0xd1 0xd0 0xbc 0xef 0x2f 0x20;
  e 0x88 0x1a 0xec 0x2b 0x39 0x40 0xef 0x66 0x18;
  e 0x93 0x4c 0x81 0x5b 0xbf 0xf9 0xef 0xd7 0x45;
  e 0x26 0xec 0x27 0x48 0xe3 0x59 0xef 0x2d 0x08;
  e 0x86 0x90 0xe6 0x73 0x17 0x25 0xef 0xf7 0x98;
  e 0x33 0x85 0x1a 0x3a 0xa4 0x30 0xef 0xb8 0xd5;
  e 0x2e 0x81 0x85 0x51 0x31 0xdb 0xef 0xe8 0x29;
  e 0x74 0x27 0x90 0x1e 0x37 0x7d 0xef 0xfb 0x11;
  e 0xa2 0x92 0xcc 0xbe 0x28 0x35 0x7e 0x6d 0xad;
  e 0x5c 0x17 0x44 0x11 0x2c 0xb0 0x7e 0x9f 0xb4;
  e 0xf6 0x33 0xcb 0x1a 0x74 0xea 0x7e 0xef 0x25;
  e 0x2f 0x44 0x92 0x9a 0xfd 0x9d 0x7e 0x3f 0xc9;
  e 0x58 0xcc 0xe9 0x31 0x29 0x15 0x7e 0xee 0x40;
  e 0xfb 0xe9 0x33 0xc1 0x7c 0x4e 0x7e 0xb8 0x15;
  e 0x81 0x62 0x17 0x16 0xde 0xbb 0x7e 0xe7 0xd9;
  e 0x05 0xcb 0x62 0xb7 0x06 0x6c 0x7e 0xed 0x79;
  e 0xa8 0xc3 0xd5 0x75 0x78 0xd2 0x42 0x79 0xef;
  e 0x65 0xf5 0x76 0x48 0xb6 0xe4 0x42 0x56 0x2a;
  e 0xe1 0x6f 0x1f 0x60 0x1d 0x3c 0x42 0x85 0xdb;
  e 0xb2 0x76 0xc3 0xef 0xc9 0x25 0x42 0x8d 0x73;
  e 0xab 0xd5 0x38 0x1c 0x0f 0x86 0x42 0xf2 0x72;
  e 0x74 0x38 0x6f 0x40 0x31 0x29 0x42 0xc8 0x6e;
  e 0xf8 0x9f 0xf5 0x82 0x99 0xcc 0x42 0xa9 0x97;
  e 0xb9 0x1f 0x9f 0x2e 0xbd 0x0e 0x42 0xf6 0x93;
  e 0x28 0x44 0xbd 0xc0 0x0d 0x03 0x20 0xe1 0xe2;
  e 0x97 0x18 0x40 0xf3 0x66 0x7f 0x20 0x10 0x9a;
  e 0x6b 0x48 0x0a 0x53 0x84 0x0f 0x20 0xff 0xae;
  e 0x85 0xc8 0x48 0xae 0x9a 0xaf 0x20 0xc4 0x1b;
  e 0xf0 0x0a 0x44 0x90 0x37 0x6d 0x20 0x45 0xe6;
  e 0xe2 0xbd 0x0b 0x8a 0xeb 0xda 0x20 0xf6 0x5f;
  e 0x2c 0x0b 0x18 0x06 0xb2 0x4c 0x20 0xdb 0x06;
  e 0x6f 0x40 0xc8 0xf2 0x1b 0x07 0x20 0x82 0x07;
  e 0xe1 0x45 0xf3 0x3c 0x5c 0x62 0x50 0x2f 0xac;
  e 0x4d 0xf3 0xd3 0x47 0xbf 0x84 0x50 0xcb 0xc1;
  e 0x68 0x5a 0x90 0xa1 0x79 0x7d 0x50 0x39 0x50].
Definition A_5 : list aff := [
  e 0x33 0x99 0xeb 0x26 0x34 0xee 0x50 0x28 0xd8;
  e 0x44 0x90 0x45 0xff 0xb4 0xe7 0x50 0x06 0x0c;
  e 0x3a 0x8d 0x5a 0xb9 0x6f 0xfa 0x50 0x92 0x60;
  e 0xc6 0xeb 0x8d 0x65 0xfb 0xcc 0x50 0xf6 0x35;
  e 0x4f 0xd3 0x99 0x8f 0x8e 0xf4 0x50 0xc7 0xbc;
  e 0xe4 0x9c 0xc2 0xe0 0xf3 0x33 0x0d 0x1d 0xd0;
  e 0x2e 0xc2 0xda 0xbc 0x37 0x60 0x0d 0x6e 0x24;
  e 0x4b 0x76 0x09 0x84 0x70 0xd9 0x0d 0x55 0x49;
  e 0x8c 0x09 0x9f 0x5b 0x16 0xab 0x0d 0x0a 0x85;
  e 0x0e 0xda 0x43 0x29 0xf2 0x75 0x0d 0x90 0xf8;
  e 0xe5 0x43 0x76 0x74 0x52 0xe1 0x0d 0xaa 0x70;
  e 0x47 0x2a 0x9c 0x3c 0x7e 0x88 0x0d 0x6c 0xa4;
  e 0xa1 0x9f 0x2a 0xef 0x7c 0x30 0x0d 0x77 0x14;
  e 0xb2 0x27 0x8d 0xd1 0x7a 0xcc 0xe4 0x8e 0x2e;
  e 0x42 0x8d 0x9a 0x40 0xaf 0x82 0xe4 0xa7 0xce;
  e 0x48 0x24 0xb0 0x8b 0xb4 0x2b 0xe4 0x72 0xee;
  e 0x25 0x9a 0x24 0xe0 0x80 0x71 0xe4 0x39 0xb6;
  e 0xce 0xe6 0x21 0x0e 0xf6 0x0d 0xe4 0x4a 0x26;
  e 0x4d 0x87 0xe6 0x33 0x32 0x88 0xe4 0x46 0xc7;
  e 0x59 0xb0 0x87 0x30 0xe8 0x5b 0xe4 0x16 0xf3;
  e 0x47 0x21 0x27 0x13 0xcd 0x2e 0xe4 0x9c 0xdf;
  e 0x3e 0x84 0x89 0xa2 0x65 0x7e 0x5c 0xff 0x86;
  e 0xc2 0xe0 0x1d 0x6c 0x26 0x1a 0x5c 0x74 0xc3;
  e 0xc8 0xf2 0x82 0x10 0xa7 0x54 0x5c 0x90 0xaa;
  e 0x6e 0x1d 0x84 0xb0 0xb4 0xbb 0x5c 0x85 0x9b;
  e 0x81 0x89 0x1c 0x3d 0xe2 0x2f 0x5c 0x17 0xb2;
  e 0x38 0x1c 0xf2 0x79 0x93 0xe6 0x5c 0x2e 0x53;
  e 0x27 0xc0 0xe0 0x67 0xad 0x66 0x5c 0xa4 0xbb;
  e 0xc4 0x82 0xc0 0x11 0x8c 0x78 0x5c 0x5f 0x5b;
  e 0x41 0xe4 0x36 0x1d 0x3c 0x32 0x4c 0x88 0x0d;
  e 0x9c 0x5a 0x0c 0x34 0x43 0xc0 0x4c 0x57 0x41;
  e 0x97 0x0c 0x10 0xed 0x68 0xda 0x4c 0xfa 0x94;
  e 0x06 0xe6 0xe4 0x46 0xc1 0x7c 0x4c 0x3d 0x95;
  e 0xa9 0x3f 0x5a 0x03 0xe1 0xe9 0x4c 0x75 0x68;
  e 0x20 0x10 0x01 0x53 0xa0 0x8a 0x4c 0xf5 0x8c;
  e 0xba 0x36 0x3f 0xf7 0x6e 0xac 0x4c 0x05 0x2d;
  e 0x7f 0x01 0xe6 0x69 0xf9 0xd7 0x4c 0xd1 0x84;
  e 0xa1 0x63 0xc4 0xd9 0xf2 0x93 0xce 0x92 0x2c;
  e 0x3f 0xb6 0x14 0x0d 0x81 0x88 0xce 0xc1 0x3d;
  e 0x73 0x35 0x7b 0xde 0xbb 0x0b 0xce 0x5a 0x69;
  e 0x49 0x14 0x79 0xb2 0xba 0xe4 0xce 0xa9 0x71;
  e 0x51 0x7b 0xb6 0x5b 0xa6 0x8b 0xce 0xb4 0xc0;
  e 0x4d 0x79 0x63 0xf8 0x1f 0x47 0xce 0xe6 0xc8;
  e 0xb9 0xfc 0x35 0x0e 0x20 0x0c 0xce 0x7f 0xe8;
  e 0x01 0xc4 0xfc 0xdb 0xeb 0xfa 0xce 0x43 0xe9;
  e 0xf4 0xed 0xea 0x30 0xb8 0x64 0x59 0xfc 0x73;
  e 0x7d 0x6d 0x9d 0xce 0x9f 0xe4 0x59 0xac 0xdb;
  e 0xfd 0xc0 0x5c 0x5f 0xdd 0x49 0x59 0x76 0x97;
  e 0x74 0xc9 0xfb 0x71 0xa3 0x40 0x59 0xaf 0x72;
  e 0x98 0xea 0xc9 0x01 0xa0 0x3a 0x59 0x4e 0xef;
  e 0x48 0x9d 0xc0 0xd8 0x57 0x4d 0x59 0xb0 0x93;
  e 0x3f 0x5c 0xed 0x0b 0xeb 0x8c 0x59 0x78 0x2a;
  e 0xef 0xfb 0x6d 0x5b 0x45 0x2b 0x59 0x56 0x6e;
  e 0xe3 0x1a 0x64 0xa7 0x54 0x2c 0x24 0x57 0x8d;
  e 0x7b 0x64 0xeb 0xc5 0x68 0x76 0x24 0xd2 0x05;
  e 0x92 0x9a 0x3f 0x9f 0xbd 0xac 0x24 0xc1 0xa5;
  e 0x7f 0x29 0x5d 0x41 0xc6 0x3b 0x24 0xee 0xf0;
  e 0x6d 0x3f 0x1a 0x14 0xa1 0x2d 0x24 0xce 0x51;
  e 0x69 0x60 0x9a 0xa6 0x2b 0x72 0x24 0xe0 0xd1;
  e 0xd5 0x5d 0x60 0x95 0x05 0x6b 0x24 0x02 0x61;
  e 0xa4 0xeb 0x29 0xbf 0xc8 0xdd 0x24 0xa2 0x3c;
  e 0x71 0x2c 0xd0 0x4f 0x53 0x50 0xe1 0x14 0x6f;
  e 0xd9 0xdf 0xc5 0xf8 0x18 0x42 0xe1 0x36 0xca;
  e 0x74 0xc5 0x7a 0x7d 0x63 0xb9 0xe1 0x6f 0x0b].
Definition A_6 : list aff := [
  e 0x0d 0x55 0xdf 0x3c 0xb8 0x29 0xe1 0xf0 0x66;
  e 0xd6 0x7a 0x2c 0x62 0xb0 0xe7 0xe1 0x96 0xb7;
  e 0x08 0xc0 0xe8 0x93 0x69 0xbc 0xe1 0xf7 0x3a;
  e 0x44 0xd0 0xc0 0x60 0x6e 0x4d 0xe1 0x45 0x5a;
  e 0x92 0x51 0xbe 0xb5 0xa8 0xe3 0x6d 0x3f 0x99;
  e 0xf7 0xfb 0x51 0x7b 0x11 0x24 0x6d 0xb6 0xd4;
  e 0xdc 0xbe 0x1c 0xaf 0xc4 0x61 0x6d 0x43 0xa1;
  e 0x03 0x4a 0x1e 0x72 0x80 0x95 0x6d 0x05 0xa1;
  e 0x28 0xd0 0xe1 0x14 0x38 0x0f 0x6d 0x2f 0xd4;
  e 0x20 0xe1 0x4a 0xf3 0x33 0x53 0x6d 0x50 0x99;
  e 0x22 0x1c 0xd0 0xb4 0x12 0xae 0x6d 0x86 0xec;
  e 0x90 0x1e 0xfb 0x2d 0xe4 0xac 0x6d 0x5b 0xec;
  e 0x41 0x50 0x4e 0xa9 0x30 0xbf 0xb5 0x84 0x74;
  e 0xae 0x0c 0x5d 0x55 0x25 0xe3 0xb5 0x82 0x39;
  e 0x3b 0x4e 0x4b 0x76 0x57 0x14 0xb5 0x09 0xf4;
  e 0x61 0x5d 0xf8 0x9f 0x18 0x07 0xb5 0xf5 0xcc;
  e 0x28 0x9a 0x0c 0xcd 0xc2 0xc0 0xb5 0x6e 0x88;
  e 0x72 0xd3 0x50 0xcb 0x38 0x89 0xb5 0xc8 0xb0;
  e 0x1d 0x4b 0x9a 0x7b 0x59 0xa4 0xb5 0x8c 0xdc;
  e 0xf2 0xf8 0xd3 0xdd 0xf9 0x17 0xb5 0x65 0x91;
  e 0xdb 0x78 0x92 0xc6 0x1f 0xee 0x5b 0xc7 0x9a;
  e 0x29 0x92 0x6e 0x4f 0xf3 0x5f 0x5b 0x41 0x07;
  e 0x30 0x34 0x78 0xd6 0xdd 0xf9 0x5b 0x22 0x06;
  e 0xfd 0x2d 0xbd 0xde 0x97 0xe0 0x5b 0xad 0xae;
  e 0xe4 0x46 0x3d 0xd1 0xe2 0x8b 0x5b 0x03 0xe2;
  e 0x4d 0xbd 0x46 0x84 0xc3 0x2b 0x5b 0xcf 0xe6;
  e 0x1e 0x6e 0x2d 0x71 0x39 0xf8 0x5b 0x05 0x1b;
  e 0x88 0x3d 0x34 0xfe 0xbe 0xab 0x5b 0x9b 0x5f;
  e 0xdf 0xec 0xf8 0x31 0x6b 0xc8 0x36 0xf0 0x0a;
  e 0xfb 0x99 0xd8 0x35 0x2c 0xbd 0x36 0x97 0x76;
  e 0x18 0xe4 0x99 0xc2 0xe5 0xf6 0x36 0x0d 0xa7;
  e 0x8e 0x70 0xd6 0x5c 0xdd 0x54 0x36 0x5e 0x82;
  e 0x2a 0xd8 0x70 0x3d 0x73 0xca 0x36 0x44 0xd3;
  e 0xaa 0x21 0xe4 0x4a 0xac 0x05 0x36 0x1d 0xc6;
  e 0x38 0xf8 0x21 0x7e 0x26 0xea 0x36 0x40 0x36;
  e 0x0a 0xd6 0xec 0xa5 0x86 0xc4 0x36 0x1b 0x0f;
  e 0x0b 0xe8 0xf2 0xf8 0x02 0x5f 0x1e 0xd3 0xc4;
  e 0x3a 0x7f 0xe8 0xee 0xbf 0xd6 0x1e 0xdd 0x21;
  e 0x8c 0xf2 0x4a 0x4d 0xac 0x5b 0x1e 0x72 0x80;
  e 0x25 0xed 0xdf 0x71 0x91 0x44 0x1e 0xda 0xf5;
  e 0x93 0xc9 0xca 0x65 0x9c 0x60 0x1e 0xdc 0x54;
  e 0xbc 0xca 0xed 0x50 0x96 0x7d 0x1e 0x58 0xb1;
  e 0x29 0x4a 0xc9 0x48 0x9a 0xfd 0x1e 0x6e 0x28;
  e 0x9e 0xdf 0x7f 0x49 0x10 0x68 0x1e 0x52 0x5d;
  e 0xf6 0x85 0xef 0xe8 0x69 0x15 0x4e 0x6b 0x78;
  e 0x7e 0xef 0xad 0x11 0x0b 0x31 0x4e 0xdb 0x58;
  e 0xc1 0x01 0x99 0x0a 0x13 0xdf 0x4e 0xb9 0x34;
  e 0xea 0xad 0x01 0xc4 0x5e 0x3d 0x4e 0xfc 0x1d;
  e 0x7a 0x21 0x60 0x35 0x6d 0xb1 0x4e 0xae 0xf1;
  e 0xa0 0x50 0x21 0x43 0xa8 0x8e 0x4e 0xf4 0xf9;
  e 0x66 0x99 0x50 0xc7 0x14 0x09 0x4e 0xa9 0xe1;
  e 0x1f 0x60 0x85 0xc8 0xfe 0xbe 0x4e 0x48 0xe0;
  e 0xde 0xb3 0xf0 0x71 0x19 0x82 0x25 0x2a 0x96;
  e 0xbc 0x8a 0xd4 0xe0 0xcb 0x9e 0x25 0xed 0xd7;
  e 0xc6 0x07 0xb3 0xcc 0xa9 0x13 0x25 0xcd 0x56;
  e 0x42 0x79 0x69 0x60 0x15 0x48 0x25 0x9a 0xda;
  e 0xd2 0x69 0x2f 0x44 0x6a 0x7d 0x25 0x92 0x12;
  e 0xef 0x2f 0x8a 0x3a 0xeb 0x1e 0x25 0xa2 0x3e;
  e 0x73 0xd4 0x07 0x3f 0xc2 0xe5 0x25 0x23 0x3f;
  e 0xa8 0xf0 0x79 0x59 0x2d 0xe4 0x25 0xa6 0xab;
  e 0xa9 0x33 0x7e 0xb8 0x51 0x77 0x46 0xdb 0x38;
  e 0xac 0x7e 0x98 0xad 0x66 0x7c 0x46 0x4e 0x4d;
  e 0xed 0xa8 0x57 0xd5 0xe1 0xec 0x46 0x42 0x38;
  e 0xae 0x57 0x47 0x70 0xd4 0x55 0x46 0x23 0x4d].
Definition A_7 : list aff := [
  e 0x32 0x98 0x96 0xc9 0x7d 0xdc 0x46 0x59 0x38;
  e 0x85 0x96 0xa8 0xf0 0x27 0x94 0x46 0x79 0x4d;
  e 0x87 0xbd 0x33 0x69 0xd3 0xbf 0x46 0x16 0x4d;
  e 0x76 0x47 0xbd 0xa6 0x8b 0x03 0x46 0x84 0x38;
  e 0x20 0xff 0xc3 0x8a 0xd9 0xf2 0xaf 0xfd 0xba;
  e 0x2d 0x71 0x05 0x41 0x33 0x7c 0xaf 0xd1 0xfe;
  e 0xc9 0xc1 0x71 0x99 0x7a 0x63 0xaf 0x4e 0x7b;
  e 0x0f 0xc3 0x7d 0x5e 0x58 0x61 0xaf 0xcf 0x42;
  e 0xa3 0xfe 0xa5 0xcd 0x75 0xf3 0xaf 0x98 0x4e;
  e 0x6b 0xa5 0xff 0xb5 0x9d 0x07 0xaf 0x27 0x9e;
  e 0xad 0x05 0xfe 0x7f 0x10 0xa7 0xaf 0x04 0xea;
  e 0xae 0x7d 0xc1 0xa4 0x30 0x70 0xaf 0xb9 0x32;
  e 0x06 0xd0 0xc6 0x63 0x1f 0x21 0xed 0xf6 0xed;
  e 0x8a 0xca 0xe0 0xd5 0x80 0x3b 0xed 0xa2 0x30;
  e 0xf7 0x5c 0x88 0xdc 0xc1 0xad 0xed 0x66 0xa0;
  e 0x85 0xb2 0xd0 0x34 0x4b 0xae 0xed 0xa8 0x64;
  e 0x99 0xe0 0x5c 0xa4 0x64 0xfc 0xed 0x0b 0x5c;
  e 0xd7 0xc6 0xca 0x8d 0x44 0xda 0xed 0x50 0x55;
  e 0xcb 0x88 0xb7 0xec 0x86 0x94 0xed 0xef 0x6d;
  e 0x7b 0xb7 0xb2 0x76 0xb3 0x46 0xed 0xc3 0x7d;
  e 0x9c 0x4a 0xe0 0x7b 0xbb 0x85 0x1d 0x6c 0x3e;
  e 0x53 0x7a 0xfa 0xae 0x43 0xb5 0x1d 0x8e 0x96;
  e 0xe9 0xe0 0x04 0x0f 0x62 0x32 0x1d 0x9e 0xd7;
  e 0xac 0x04 0xc6 0xbf 0xd4 0xcb 0x1d 0x38 0x3f;
  e 0x3b 0xfa 0xfb 0x22 0x48 0x28 0x1d 0x4b 0xab;
  e 0x21 0x0e 0x4a 0x46 0xef 0xdc 0x1d 0x40 0x12;
  e 0x63 0xfb 0x0e 0xb8 0x31 0x34 0x1d 0x15 0xda;
  e 0xf3 0xc6 0x7a 0xa4 0xd8 0x14 0x1d 0x47 0x56;
  e 0x86 0x07 0x8e 0x59 0xa4 0x64 0x75 0x7f 0xc2;
  e 0xe5 0x03 0xaa 0x1e 0x92 0x60 0x75 0x6d 0x1f;
  e 0x3f 0xf6 0x03 0x4d 0x45 0xe0 0x75 0x05 0x4f;
  e 0x1b 0x8e 0x97 0x9e 0xbb 0x98 0x75 0x1a 0x1a;
  e 0xe1 0xf0 0xc4 0x62 0x5e 0x93 0x75 0xba 0xbf;
  e 0x29 0xc4 0x07 0x5f 0x10 0xd2 0x75 0x54 0x7e;
  e 0x0d 0xaa 0xf0 0xef 0x9b 0xbc 0x75 0x5d 0x13;
  e 0x82 0x97 0xf6 0x33 0x1d 0xf4 0x75 0xcb 0x2f;
  e 0x25 0x2a 0x28 0x44 0x35 0x3f 0x13 0xbd 0x95;
  e 0xd9 0xf5 0xe3 0x75 0x6e 0xe0 0x13 0x3e 0x8c;
  e 0x82 0x28 0x09 0x64 0x5e 0x2e 0x13 0xe2 0x0d;
  e 0x84 0x72 0xf5 0x9e 0xed 0x74 0x13 0xad 0x94;
  e 0xcc 0x09 0xbf 0x3c 0xc8 0x1c 0x13 0xc4 0x2d;
  e 0xde 0xe3 0x2a 0x0e 0x4c 0xe5 0x13 0xc0 0x84;
  e 0xd8 0xbf 0xc3 0xe1 0xec 0xb9 0x13 0x89 0x68;
  e 0x30 0xc3 0x72 0x0b 0x80 0xd6 0x13 0x52 0x41;
  e 0x65 0x15 0x28 0xa8 0x8e 0x3f 0xff 0x6e 0x0e;
  e 0x62 0xa2 0x9c 0xce 0xbd 0x88 0xff 0x16 0x37;
  e 0x4b 0x53 0x38 0xa1 0xec 0x86 0xff 0xc9 0x3b;
  e 0x9e 0x9c 0x15 0x59 0x24 0x49 0xff 0x2c 0x47;
  e 0x51 0x28 0xa5 0x0c 0xf2 0xfd 0xff 0xb5 0x8b;
  e 0x48 0xa5 0x53 0x2b 0xa0 0x8f 0xff 0xc4 0x9f;
  e 0x84 0x32 0xa2 0xde 0xc5 0xe7 0xff 0x85 0xcf;
  e 0x4f 0x38 0x32 0x98 0x6c 0x12 0xff 0x96 0xeb;
  e 0x8b 0xc5 0x39 0x4f 0xaf 0x0c 0x0e 0x07 0x8b;
  e 0xcc 0xca 0x2c 0x4b 0x57 0x0d 0x0e 0x23 0x37;
  e 0xf8 0xfb 0xa9 0x33 0x81 0x3c 0x0e 0x7e 0xeb;
  e 0x42 0xa9 0xca 0x75 0xf7 0x60 0x0e 0xac 0xcf;
  e 0x0b 0x39 0x89 0x29 0xc8 0xfe 0x0e 0x19 0x9f;
  e 0x2e 0x2c 0xcf 0xdb 0x8a 0xe5 0x0e 0xda 0x47;
  e 0x3f 0xcf 0xc5 0x98 0x10 0x08 0x0e 0x83 0x0e;
  e 0xe7 0x89 0xfb 0x26 0xdc 0x40 0x0e 0xb8 0x3b;
  e 0xb7 0xd7 0xe5 0x43 0xc0 0x1a 0x96 0x76 0x79;
  e 0xf5 0x3b 0x44 0xfb 0x9c 0xf6 0x96 0x1d 0xb4;
  e 0x38 0xb4 0x98 0xea 0x94 0x79 0x96 0xc9 0x15;
  e 0x37 0x62 0xb4 0x9a 0x2b 0x39 0x96 0x01 0x40].
Definition A_8 : list aff := [
  e 0x6c 0xe5 0x3b 0x4e 0xee 0xbe 0x96 0x4b 0xd9;
  e 0xb0 0x98 0xd7 0xb3 0xab 0xc3 0x96 0x74 0x25;
  e 0xeb 0x44 0x95 0xaa 0xf8 0x1f 0x96 0x65 0xc9;
  e 0x7a 0x95 0x62 0x09 0x5e 0x58 0x96 0x6f 0xad;
  e 0x8b 0x4c 0xeb 0xd9 0xd5 0xe1 0x4b 0xe9 0xc0;
  e 0x26 0x22 0x19 0x86 0xaf 0x8f 0x4b 0x61 0x2c;
  e 0xfa 0x4e 0x22 0xfd 0x9d 0xa8 0x4b 0x8e 0xc8;
  e 0x48 0xe2 0x5a 0x4d 0x95 0x4f 0x4b 0x53 0xe8;
  e 0xe5 0x21 0x4e 0xf4 0xa4 0x8c 0x4b 0x76 0x71;
  e 0x08 0xeb 0x21 0xa1 0xb3 0x0d 0x4b 0xe8 0x3d;
  e 0x1c 0x5a 0x4c 0x75 0x4a 0xbc 0x4b 0x37 0x69;
  e 0x73 0xf2 0xf1 0x65 0x9f 0xde 0xc6 0x07 0x39;
  e 0x5f 0x7c 0xd0 0x68 0xda 0x50 0xc6 0x63 0x74;
  e 0xfd 0x6b 0x04 0xf4 0x14 0x47 0xc6 0xbf 0x91;
  e 0xd1 0xc9 0xcf 0x13 0x97 0xe5 0xc6 0xf7 0xdc;
  e 0xd9 0xf1 0x6b 0xd6 0xc8 0x1b 0xc6 0xe6 0xcc;
  e 0x33 0xd0 0xc9 0x9e 0x67 0x3a 0xc6 0xeb 0xf4;
  e 0xf8 0x04 0x7c 0xcc 0x4e 0xee 0xc6 0xb1 0xb0;
  e 0x12 0xcf 0xf2 0xa8 0x27 0x25 0xc6 0x56 0x88;
  e 0x25 0xcd 0xbd 0x60 0xac 0xe0 0xe5 0xf3 0xb5;
  e 0x3f 0x20 0x83 0x8c 0x87 0x0d 0xe5 0x03 0x04;
  e 0x12 0x17 0x56 0x74 0xad 0x3a 0xe5 0xfc 0x9d;
  e 0xdb 0xa0 0x17 0x1e 0xa2 0x68 0xe5 0x7a 0x9c;
  e 0x13 0xbd 0x20 0xe1 0xa5 0x75 0xe5 0x4a 0x48;
  e 0xc6 0x56 0xcd 0xf4 0x5c 0x9e 0xe5 0xbb 0x1c;
  e 0x0e 0x83 0xd7 0x26 0xbe 0x4b 0xe5 0x43 0xbd;
  e 0x08 0xd7 0xa0 0x50 0x63 0xfa 0xe5 0x21 0x59;
  e 0xb6 0x90 0x50 0x39 0x63 0x09 0xb0 0x5e 0xa8;
  e 0x9d 0x24 0xd8 0xb3 0xa9 0xbd 0xb0 0xac 0xe5;
  e 0x2f 0x22 0x3f 0xcf 0x97 0xbb 0xb0 0xc5 0xa8;
  e 0x38 0x9e 0x22 0x18 0xfe 0xb7 0xb0 0x98 0x44;
  e 0x11 0xd8 0x90 0x83 0x93 0xf1 0xb0 0x47 0x44;
  e 0x57 0x50 0x0f 0xc3 0x86 0x79 0xb0 0x7d 0x7c;
  e 0x04 0x0f 0x9e 0x6c 0xed 0x96 0xb0 0xae 0xe5;
  e 0x7e 0x3f 0x24 0xc1 0x5b 0x16 0xb0 0x8b 0x7c;
  e 0x76 0x27 0xef 0x2d 0xc1 0xa6 0x8d 0x56 0x24;
  e 0xc5 0xab 0x27 0xa3 0x82 0xa7 0x8d 0xd1 0xd0;
  e 0xf7 0xeb 0xd6 0x95 0x38 0x6a 0x8d 0x96 0x85;
  e 0xf0 0xef 0x5d 0x6d 0xfd 0xe3 0x8d 0x59 0xf8;
  e 0xfc 0xd6 0x10 0x2c 0x08 0xda 0x8d 0xe1 0x14;
  e 0x3b 0x10 0xab 0x28 0x0a 0x91 0x8d 0x54 0xa4;
  e 0xc9 0x9e 0xeb 0x63 0xfa 0x92 0x8d 0x65 0x49;
  e 0xba 0x5d 0x9e 0x9c 0x7e 0xdc 0x8d 0x15 0x70;
  e 0x04 0x93 0x9f 0x81 0x88 0x6c 0x2a 0xef 0xc3;
  e 0x66 0x06 0x93 0x3d 0x69 0xd3 0x2a 0xd7 0xbb;
  e 0x56 0xaf 0x5f 0x3e 0x3b 0x7a 0x2a 0x63 0xaa;
  e 0xfb 0x71 0xaf 0x4e 0x8f 0x8e 0x2a 0xd8 0x53;
  e 0x19 0x5f 0x06 0xd0 0x12 0xa0 0x2a 0xc6 0x5b;
  e 0xb3 0xe3 0x71 0x0a 0x91 0x36 0x2a 0xcd 0xb2;
  e 0xe6 0x42 0xe3 0xca 0x3f 0xbd 0x2a 0x0e 0x86;
  e 0x83 0x9f 0x42 0xf6 0xe9 0x4a 0x2a 0xac 0x9b;
  e 0xda 0xbe 0x8f 0x14 0x09 0x87 0xc0 0xb3 0x3e;
  e 0xcd 0x0e 0xd0 0x90 0xbc 0xf7 0xc0 0x60 0xab;
  e 0xb5 0x82 0xca 0xcb 0x9e 0x7b 0xc0 0x98 0x56;
  e 0x97 0xd0 0xfa 0xd5 0xaa 0xe9 0xc0 0xa5 0xda;
  e 0xe3 0xca 0x0e 0xac 0x05 0xf3 0xc0 0x3e 0x96;
  e 0x4c 0xfa 0xbe 0x46 0xab 0x03 0xc0 0xd9 0x12;
  e 0xae 0x9d 0x82 0x94 0x66 0xa4 0xc0 0x11 0x3f;
  e 0x34 0x8f 0x9d 0x24 0x49 0x76 0xc0 0xd8 0xd7;
  e 0xd1 0x20 0x57 0x50 0x14 0x84 0xbc 0x0f 0xb3;
  e 0xef 0xd7 0x0a 0x2b 0x70 0x73 0xbc 0x8a 0x7f;
  e 0x8b 0x57 0xe9 0xe0 0x05 0x4f 0xbc 0x04 0xd2;
  e 0x93 0x3d 0xd7 0xc6 0xf5 0x25 0xbc 0xca 0x7a;
  e 0x4b 0xe9 0x78 0xfd 0x24 0x4d 0xbc 0xac 0x03].
Definition A_9 : list aff := [
  e 0xf9 0x0a 0x20 0xff 0xb7 0x12 0xbc 0xc3 0x43;
  e 0xe1 0x78 0xba 0x7d 0xfb 0x60 0xbc 0x15 0xa6;
  e 0x75 0xba 0x3d 0x9e 0xfc 0x1e 0xbc 0x8d 0xf7;
  e 0x0f 0xf9 0xca 0x61 0x3f 0x7b 0x6a 0x49 0x45;
  e 0x8d 0xe1 0x04 0x2d 0x01 0x63 0x6a 0xb9 0x08;
  e 0xfc 0x7a 0xe1 0x6f 0xaa 0x92 0x6a 0x1f 0x18;
  e 0x95 0x84 0x5c 0x85 0x98 0x06 0x6a 0x12 0x98;
  e 0xda 0x04 0x84 0xae 0xc3 0xec 0x6a 0x79 0x11;
  e 0x17 0x1e 0x7a 0x21 0xcc 0x9c 0x6a 0x60 0xd5;
  e 0x32 0xca 0x1e 0xdc 0x15 0x22 0x6a 0x35 0x29;
  e 0x14 0x5c 0xf9 0x9f 0x16 0xb4 0x6a 0xbb 0x20;
  e 0xf6 0xf7 0x4d 0xb1 0x14 0x81 0x05 0xcb 0x01;
  e 0x6e 0x72 0x71 0x66 0xa7 0x04 0x05 0x41 0xa9;
  e 0x45 0x71 0x6f 0xb7 0x0c 0x02 0x05 0x82 0xfd;
  e 0x36 0x0d 0xf7 0x5c 0x9e 0x7e 0x05 0x88 0xc5;
  e 0x4a 0x4d 0x72 0xd3 0xc6 0x3e 0x05 0x50 0x81;
  e 0x80 0x6f 0x42 0xc8 0xf0 0x19 0x05 0x20 0x4c;
  e 0x18 0x9c 0x0d 0x6c 0x46 0xea 0x05 0xdc 0xe4;
  e 0x39 0x42 0x9c 0x4e 0x51 0x31 0x05 0x29 0xb9;
  e 0x18 0x6b 0x1c 0x27 0xcd 0xc2 0xb7 0xf3 0xa9;
  e 0xbb 0x0e 0x6b 0x66 0x5f 0x10 0xb7 0x08 0x81;
  e 0x31 0x1c 0x6d 0x43 0xfd 0x02 0xb7 0x1b 0xfd;
  e 0x2f 0x88 0xc5 0xf5 0x68 0x96 0xb7 0x26 0xc5;
  e 0xa5 0x84 0x6a 0x79 0x7d 0x9a 0xb7 0x2b 0xb9;
  e 0xb1 0x6a 0x88 0x1a 0x46 0xc3 0xb7 0xec 0xe4;
  e 0x19 0x6d 0x84 0xa0 0x70 0xc4 0xb7 0x61 0x4c;
  e 0xb0 0xc5 0x0e 0x83 0x4c 0x6c 0xb7 0xd7 0x01;
  e 0x15 0xf8 0xf3 0xb1 0xf4 0xc7 0xd3 0x47 0xa2;
  e 0x80 0xf3 0x01 0x7a 0x63 0x1f 0xd3 0x1d 0x4a;
  e 0x04 0x4c 0xef 0x2f 0xc9 0xa0 0xd3 0x8a 0xe3;
  e 0x2a 0xef 0x77 0x0a 0x8b 0xd0 0xd3 0xbc 0xde;
  e 0x6c 0x77 0x29 0xbe 0xf0 0x9b 0xd3 0xa6 0xaf;
  e 0x3d 0x29 0x24 0xa2 0x49 0x16 0xd3 0xfe 0x67;
  e 0x02 0x01 0x4c 0xf5 0xe5 0x3e 0xd3 0x3a 0x23;
  e 0xe8 0x24 0xf8 0xd4 0x89 0xc8 0xd3 0xdd 0x4b;
  e 0x68 0xa7 0x0a 0x4b 0x03 0xe1 0x44 0x90 0x38;
  e 0x2e 0x17 0x67 0x60 0xdc 0x51 0x44 0x22 0x38;
  e 0x1e 0x52 0xa7 0x4d 0x04 0x50 0x44 0x38 0x4d;
  e 0x73 0x67 0x3b 0xfa 0x1f 0x65 0x44 0xfb 0x4d;
  e 0x9e 0x3b 0x52 0xe7 0xec 0x7d 0x44 0x63 0x38;
  e 0xd8 0xcd 0x3d 0xce 0x77 0x8b 0x44 0x97 0x38;
  e 0x71 0x0a 0xcd 0x0e 0xc2 0x08 0x44 0xd0 0x4d;
  e 0x1c 0x3d 0x17 0xff 0x9d 0x3f 0x44 0x11 0x4d;
  e 0x07 0x3f 0x23 0xed 0x74 0x94 0xf3 0x59 0x74;
  e 0xc0 0x60 0x45 0x14 0x84 0xcb 0xf3 0x3c 0xdc;
  e 0xac 0xf8 0x19 0x7c 0xd1 0x53 0xf3 0xc6 0x39;
  e 0xaf 0x27 0x3f 0xa4 0x11 0x7f 0xf3 0x78 0xb0;
  e 0xf7 0x45 0xf8 0x3b 0x1f 0x1d 0xf3 0xb1 0x88;
  e 0xcd 0x23 0x60 0x32 0x7e 0x7b 0xf3 0xbb 0xf4;
  e 0x95 0x19 0x0c 0x06 0x83 0x41 0xf3 0x2a 0xcc;
  e 0x6b 0x0c 0x27 0xdd 0xd2 0xa7 0xf3 0x08 0x91;
  e 0xd9 0xa5 0x94 0x25 0x67 0x1e 0x93 0x37 0xa5;
  e 0x29 0x94 0x54 0xf9 0xe2 0xbc 0x93 0xc9 0x51;
  e 0x62 0x09 0x6f 0x65 0x18 0xb2 0x93 0xb3 0x3c;
  e 0x01 0x6f 0x43 0xc6 0xb5 0x47 0x93 0x89 0xf0;
  e 0x75 0x54 0x06 0x33 0x6c 0xef 0x93 0x3d 0x8d;
  e 0xd2 0x06 0x09 0xe4 0xa9 0x2e 0x93 0x4c 0x05;
  e 0xfa 0xd5 0xa5 0x60 0x6d 0xfd 0x93 0x24 0xd1;
  e 0xce 0x43 0xd5 0x5b 0x80 0xf8 0x93 0x02 0x61;
  e 0x64 0x32 0x9b 0x1e 0x8d 0x44 0x73 0x6a 0xf5;
  e 0x12 0xaf 0x09 0xfa 0x87 0xd9 0x73 0xf2 0x80;
  e 0x8f 0xb8 0x54 0x3f 0x2c 0xce 0x73 0x77 0x54;
  e 0xbc 0xc3 0xaf 0xfd 0x02 0xc6 0x73 0xd4 0xc4;
  e 0x2e 0x9b 0x53 0xe5 0x3e 0x9e 0x73 0x67 0x5d].
Definition A_10 : list aff := [
  e 0xf9 0x53 0xc3 0xde 0x55 0x25 0x73 0x99 0x21;
  e 0xb9 0x54 0x32 0x65 0x7e 0x51 0x73 0x35 0xb1;
  e 0x2b 0x09 0xb8 0x0b 0x31 0x0c 0x73 0x83 0x28;
  e 0x6f 0xf1 0xc6 0x07 0xf5 0x21 0x89 0xb3 0x7e;
  e 0x92 0xc6 0xc7 0x22 0x49 0x9f 0x89 0xde 0xc2;
  e 0xb5 0x84 0xdf 0xcd 0x64 0xdd 0x89 0x62 0x2f;
  e 0xbf 0xdf 0xe1 0xf0 0xa5 0x0f 0x89 0xc4 0x4f;
  e 0xcb 0xe1 0x39 0x85 0x40 0xb8 0x89 0x29 0x1f;
  e 0x91 0x39 0xfa 0x9c 0xf6 0xe9 0x89 0x05 0x13;
  e 0x41 0xc7 0x84 0x32 0x2f 0x17 0x89 0xa2 0x1a;
  e 0xec 0xfa 0xf1 0xba 0xe4 0xa3 0x89 0xcc 0xbf;
  e 0x9d 0x25 0xa3 0xbd 0x0e 0xc2 0x8e 0xe5 0xbb;
  e 0x4e 0xae 0xfd 0x11 0x24 0xc7 0x8e 0x76 0x53;
  e 0x2a 0x63 0xee 0x81 0xbf 0x0a 0x8e 0x70 0x86;
  e 0xb1 0xfd 0x07 0x5c 0x98 0x1a 0x8e 0x59 0xaa;
  e 0x7a 0xee 0xae 0x57 0xa1 0x09 0x8e 0x47 0xb2;
  e 0x43 0x07 0x25 0x23 0xf7 0x6e 0x8e 0xf3 0x5b;
  e 0x56 0xd1 0x63 0xdf 0xb9 0x36 0x8e 0x1c 0x9b;
  e 0x27 0xa3 0xd1 0x54 0xe2 0xca 0x8e 0x9c 0xc3;
  e 0x19 0x8b 0xda 0x04 0x50 0xb1 0xa5 0x84 0x22;
  e 0x23 0x42 0xb8 0x5c 0x64 0x78 0xa5 0xd2 0x2b;
  e 0xc8 0x28 0x8b 0x2f 0xb4 0xb7 0xa5 0xae 0x8f;
  e 0xaa 0xb8 0xfe 0x02 0x07 0x27 0xa5 0xcd 0xf2;
  e 0xea 0xfe 0x28 0x9a 0x8f 0xc4 0xa5 0x0c 0x46;
  e 0xd0 0x0d 0xd5 0x5d 0x1e 0x37 0xa5 0x60 0x77;
  e 0x35 0xda 0x0d 0x6e 0xac 0x45 0xa5 0x95 0x62;
  e 0x57 0xd5 0x42 0x79 0xba 0x4a 0xa5 0x69 0x52;
  e 0x46 0xdb 0x15 0xf0 0x48 0xa6 0xbf 0xd1 0x0c;
  e 0x3b 0xf4 0x09 0x91 0xb9 0x89 0xbf 0x3c 0xd8;
  e 0x6b 0x1f 0xf4 0x0f 0x5c 0xdd 0xbf 0xe6 0xbc;
  e 0x77 0x15 0x5f 0xc5 0x10 0xd7 0xbf 0xbe 0xac;
  e 0x14 0x0d 0xc1 0xb4 0x2b 0x70 0xbf 0xd9 0x60;
  e 0xa9 0xc1 0xdb 0xe2 0xd0 0x03 0xbf 0x45 0x50;
  e 0xb5 0x09 0x0d 0x55 0x23 0xcb 0xbf 0xdf 0x35;
  e 0x69 0x5f 0x1f 0x17 0x65 0x22 0xbf 0x49 0xc1;
  e 0x94 0x25 0x37 0x24 0x4d 0x2d 0xdc 0xe4 0x3a;
  e 0x1d 0x6c 0x74 0xa4 0xdf 0xb8 0xdc 0x3d 0xb7;
  e 0x46 0x79 0x25 0xa6 0x56 0xad 0xdc 0x39 0x5a;
  e 0x85 0x74 0x79 0xaf 0x01 0x7c 0xdc 0x3a 0x6f;
  e 0xc9 0x37 0x65 0x61 0x9d 0xe3 0xdc 0x6e 0x6a;
  e 0x92 0xf6 0x3c 0x6b 0xc8 0x22 0xdc 0xbe 0xca;
  e 0x9c 0x3c 0x6c 0x77 0xdb 0x34 0xdc 0x29 0x0b;
  e 0x94 0x9a 0xe4 0xa7 0x2a 0x7c 0xad 0xa0 0x0e;
  e 0xdc 0xe4 0x45 0x6b 0x4f 0xaf 0xad 0x82 0x8b;
  e 0xed 0xef 0x9a 0x63 0x8f 0xa4 0xad 0x30 0x47;
  e 0xa6 0xde 0x23 0x91 0xe1 0x95 0xad 0xe7 0x3b;
  e 0x97 0x9e 0x1a 0x7f 0x8c 0xd5 0xad 0x1e 0xcf;
  e 0x72 0x23 0x9e 0x3b 0xa2 0xc5 0xad 0x52 0xeb;
  e 0x2d 0x45 0xde 0x6f 0x18 0xa3 0xad 0x05 0x9f;
  e 0xcb 0x1a 0xef 0xb8 0x3d 0xfc 0xad 0x11 0x37;
  e 0x84 0xa0 0x61 0x1b 0x9d 0xde 0xd9 0xf5 0x9a;
  e 0x8c 0x46 0x0a 0xd6 0x91 0xe1 0xd9 0xec 0xe2;
  e 0x0c 0x34 0x57 0x75 0x90 0x93 0xd9 0x69 0xae;
  e 0xfa 0x57 0x46 0x42 0xea 0x29 0xd9 0xa5 0xe6;
  e 0x2b 0x61 0x83 0xf8 0x41 0xc6 0xd9 0xb5 0x07;
  e 0x0d 0x0a 0xb4 0xe0 0xbb 0x74 0xd9 0xdf 0x5f;
  e 0xab 0xb4 0xa0 0x25 0x99 0x13 0xd9 0x97 0x06;
  e 0x73 0x83 0x34 0x1e 0x15 0xfd 0xd9 0xf1 0x1b;
  e 0xe6 0x69 0xd1 0xf5 0x99 0xca 0x2f 0xf7 0x82;
  e 0x45 0x14 0x3c 0xbb 0x85 0xb7 0x2f 0x06 0xc6;
  e 0x5c 0x2e 0x69 0x67 0x1e 0xa2 0x2f 0x44 0xd3;
  e 0x9b 0x03 0x4f 0x9a 0xaf 0xa0 0x2f 0x70 0x0a;
  e 0xd0 0x4f 0x14 0x96 0xa1 0xc3 0x2f 0x86 0x36;
  e 0x3d 0xd1 0x03 0xcf 0xd9 0x5d 0x2f 0xc6 0x0f].
Definition A_11 : list aff := [
  e 0x38 0xdd 0x2e 0x58 0x9c 0x7e 0x2f 0x22 0x76;
  e 0xb1 0x3c 0xdd 0x9d 0x49 0xb0 0x2f 0x88 0xa7;
  e 0x53 0x62 0x7e 0xed 0x26 0xae 0xb4 0xa1 0xf7;
  e 0x03 0xb1 0x62 0xec 0x79 0xc9 0xb4 0x9a 0xa6;
  e 0x0f 0x7e 0x49 0x07 0x10 0x06 0xb4 0x6c 0x7a;
  e 0x9f 0x5b 0x0a 0x55 0x13 0x97 0xb4 0xe0 0xb3;
  e 0xa6 0xbc 0xb1 0xaf 0x8f 0x70 0xb4 0x73 0x03;
  e 0x6a 0x49 0xbd 0x6f 0x0e 0x85 0xb4 0xfe 0x7f;
  e 0x7b 0xbd 0x5b 0xad 0x80 0xc5 0xb4 0x5a 0x43;
  e 0x77 0x0a 0xbc 0x8a 0x5d 0x72 0xb4 0xd4 0xd2;
  e 0x13 0xc4 0xdd 0x9e 0xa2 0x44 0x2e 0x58 0x7d;
  e 0xe4 0x8e 0x91 0x8b 0x5a 0x0e 0x2e 0xc2 0xa0;
  e 0x93 0xb3 0xa3 0x60 0x05 0x33 0x2e 0x81 0x30;
  e 0x62 0x41 0xb3 0x88 0x46 0xef 0x2e 0x7c 0x55;
  e 0xcc 0x91 0xc4 0x51 0x61 0x3f 0x2e 0x2c 0x6d;
  e 0x1c 0xdd 0x79 0xbc 0xc9 0x73 0x2e 0x17 0x64;
  e 0x64 0x79 0x41 0xdb 0xd3 0xf9 0x2e 0x9b 0xed;
  e 0xb2 0xa3 0x8e 0xe5 0xc0 0x0d 0x2e 0xe9 0x5c;
  e 0xc1 0xe0 0xc5 0x31 0xfe 0x19 0x39 0x4f 0x46;
  e 0x56 0xc5 0xe1 0x36 0xe9 0x05 0x39 0x85 0x8f;
  e 0x5a 0x6a 0xa1 0x83 0x87 0xaa 0x39 0x92 0x62;
  e 0x38 0xa1 0xc9 0xc4 0x73 0x58 0x39 0xce 0x77;
  e 0x96 0xc9 0x59 0x4e 0xa4 0x09 0x39 0x70 0x52;
  e 0x79 0x59 0xa6 0x2a 0xd1 0xa0 0x39 0x3a 0x2b;
  e 0x80 0xe1 0x6a 0x1f 0x65 0x18 0x39 0x42 0x22;
  e 0x9a 0xa6 0xe0 0x02 0xf3 0x66 0x39 0xa7 0xf2;
  e 0x61 0xb0 0xe4 0x72 0x56 0x97 0x77 0xbb 0xca;
  e 0x46 0x4e 0x64 0xd5 0x78 0x69 0x77 0x15 0x5a;
  e 0xfc 0x3f 0xb0 0xc5 0xe7 0x6f 0x77 0x0e 0x66;
  e 0x7c 0x64 0x58 0x8a 0xfa 0x34 0x77 0x8c 0x3a;
  e 0xb8 0x58 0x3f 0x20 0xc2 0x7f 0x77 0x83 0x6a;
  e 0x9f 0x81 0xef 0xd7 0x9b 0xa6 0x77 0x0a 0xb7;
  e 0x2c 0xe4 0x81 0x03 0x84 0xb4 0x77 0x2b 0x0b;
  e 0xac 0xef 0x4e 0x6b 0xee 0xbf 0x77 0xf9 0x6f;
  e 0xfd 0x27 0x99 0xe0 0x3e 0xf4 0x3f 0x5c 0xbc;
  e 0x44 0x22 0x9a 0x4d 0x2d 0xce 0x3f 0x9f 0x0c;
  e 0x13 0xe2 0x58 0x0b 0x6f 0x0e 0x3f 0x20 0x60;
  e 0x2e 0x58 0x22 0x88 0x16 0x8b 0x3f 0xcf 0x50;
  e 0xa8 0x99 0x36 0x0d 0xe9 0x75 0x3f 0xf7 0xd8;
  e 0x51 0x9a 0xb5 0x8c 0xc7 0x49 0x3f 0xb6 0xac;
  e 0xff 0xb5 0x27 0x98 0x94 0x59 0x3f 0xa4 0xc1;
  e 0x82 0x36 0xe2 0x08 0xd0 0xe5 0x3f 0xf6 0x35;
  e 0x26 0x67 0x2d 0x8f 0x09 0x30 0x40 0xdf 0x5f;
  e 0xf8 0xe9 0x7e 0xee 0x22 0xfe 0x40 0xf0 0xae;
  e 0x3c 0x46 0x67 0x64 0xfc 0x51 0x40 0x77 0xe2;
  e 0x59 0x56 0x95 0x5f 0x04 0x01 0x40 0x2a 0x9a;
  e 0x2b 0x95 0x18 0x0c 0x07 0x82 0x40 0xf3 0x07;
  e 0x71 0x18 0xe9 0x1c 0xa5 0x4f 0x40 0xb7 0x1b;
  e 0x0e 0x7e 0x46 0xdb 0xe8 0x29 0x40 0x15 0xe6;
  e 0xef 0x2d 0x56 0xd1 0x99 0x3a 0x40 0x63 0x06;
  e 0xfd 0x17 0x18 0xe4 0xa3 0x82 0xa8 0x99 0x87;
  e 0x26 0xb1 0x61 0x59 0x11 0x8c 0xa8 0xc7 0x02;
  e 0x8f 0x02 0x17 0x13 0xca 0x3f 0xa8 0xc2 0x5e;
  e 0xde 0xd7 0x96 0x74 0xec 0x42 0xa8 0xf0 0xfa;
  e 0xb2 0x96 0x34 0x0d 0xe8 0xab 0xa8 0xc3 0x57;
  e 0x68 0x34 0xb1 0xd8 0x14 0xa1 0xa8 0x87 0x17;
  e 0x4b 0x61 0x02 0x75 0xf3 0xf4 0xa8 0x7b 0x27;
  e 0x1b 0x18 0xd7 0xd2 0x9b 0x25 0xa8 0xfb 0x33;
  e 0x2d 0x58 0x0c 0x72 0x02 0x41 0x87 0x1f 0xc4;
  e 0x34 0x1a 0xd8 0xbf 0x0a 0x03 0x87 0xc3 0xb1;
  e 0xc0 0xd8 0xb0 0xac 0x88 0x46 0x87 0x30 0xf5;
  e 0x5e 0x0c 0xeb 0x69 0x1e 0x92 0x87 0xfd 0x80;
  e 0x14 0x01 0x58 0x89 0x65 0x9f 0x87 0xb2 0x21;
  e 0x8a 0x4b 0x1a 0x55 0x74 0xd5 0x87 0xe1 0x54].
Definition A_12 : list aff := [
  e 0x76 0xb0 0x01 0xba 0x2a 0xa9 0x87 0xbd 0x5d;
  e 0x6f 0xeb 0x4b 0xe9 0xa5 0xf2 0x87 0x78 0x28;
  e 0x5f 0x90 0xb0 0x47 0x9f 0xb2 0x01 0xba 0x2f;
  e 0x7d 0xad 0x19 0xcc 0x28 0x8f 0x01 0xa4 0xbf;
  e 0x40 0xf3 0x10 0xdb 0xd7 0xd1 0x01 0x53 0xc2;
  e 0xa1 0x9a 0xad 0x30 0xdf 0xb9 0x01 0xc4 0x13;
  e 0x08 0xb0 0xec 0xfa 0xaa 0x93 0x01 0xf1 0x4f;
  e 0x62 0xec 0x9a 0x73 0x61 0xce 0x01 0x6f 0x1f;
  e 0x82 0x10 0x90 0x2e 0x4a 0x33 0x01 0x6c 0x1a;
  e 0x2b 0x19 0xf3 0xc6 0x3e 0x3a 0x01 0x7a 0x7e;
  e 0x54 0x01 0x87 0xbd 0x0d 0x4a 0xe6 0x33 0xb2;
  e 0xf1 0xb5 0xd6 0x16 0xc5 0x18 0xe6 0x07 0x5b;
  e 0x1f 0xd6 0x0f 0x7e 0xff 0x9d 0xe6 0x49 0xbb;
  e 0x5c 0x90 0x01 0x6c 0x7c 0x3d 0xe6 0x69 0x86;
  e 0x83 0xf8 0xb5 0xf5 0xa8 0xb3 0xe6 0x42 0xaa;
  e 0xd4 0x0f 0x64 0xca 0xfc 0xa2 0xe6 0x6a 0xc3;
  e 0x79 0x87 0xf8 0xfb 0xa3 0x2a 0xe6 0xa9 0x53;
  e 0xc8 0x64 0x90 0x9b 0xbc 0x2f 0xe6 0x73 0x9b;
  e 0x54 0x3f 0x77 0x83 0xdb 0xd0 0x5a 0xe5 0xcd;
  e 0x52 0xd8 0xe2 0xa5 0xbc 0x37 0x5a 0x4d 0x6c;
  e 0x35 0x77 0xde 0xb7 0x07 0xc2 0x5a 0x7f 0x10;
  e 0x80 0x8d 0xd8 0x04 0x14 0x38 0x5a 0x6a 0x65;
  e 0xbd 0xde 0xad 0x05 0x40 0x31 0x5a 0xfe 0x19;
  e 0x7a 0xe2 0x3f 0xf6 0xc0 0x57 0x5a 0x03 0xfc;
  e 0xcf 0xad 0xd6 0xaa 0x89 0x18 0x5a 0xa3 0x89;
  e 0xbb 0xd6 0x8d 0x96 0x7d 0x39 0x5a 0xb9 0xb8;
  e 0x06 0x1a 0xab 0xba 0x9b 0xc9 0xec 0x67 0xb7;
  e 0x91 0x50 0xb0 0x5e 0xce 0x6f 0xec 0xfa 0x66;
  e 0x6a 0x12 0x1a 0xdc 0x59 0x2d 0xec 0x2b 0x0b;
  e 0x95 0xb0 0x12 0xaf 0xa0 0x63 0xec 0x09 0xca;
  e 0xae 0xab 0x23 0xf2 0x75 0x94 0xec 0xd2 0x6f;
  e 0x55 0xd6 0x5a 0xa3 0x0e 0xe9 0xec 0x3c 0x3a;
  e 0x46 0x23 0xd6 0xb8 0xc8 0xf0 0xec 0xa5 0x5a;
  e 0xd5 0x5a 0x50 0x92 0x1f 0x89 0xec 0x18 0x6a;
  e 0xe6 0x73 0xf7 0xfb 0x60 0x7e 0xa2 0x51 0xd6;
  e 0xca 0x3a 0xd5 0x5a 0xe1 0x37 0xa2 0x50 0xff;
  e 0x67 0xd5 0x5f 0xb6 0xa7 0x7a 0xa2 0x91 0x6b;
  e 0xc8 0x32 0x73 0x35 0x61 0x9d 0xa2 0x7b 0xfb;
  e 0x2f 0xf7 0x3a 0x96 0x63 0x58 0xa2 0x92 0xbe;
  e 0xeb 0x5f 0xbf 0xbe 0xab 0x52 0xa2 0xd2 0xe7;
  e 0xc7 0x1b 0x32 0xb0 0x88 0x16 0xa2 0xde 0xf6;
  e 0x80 0xbf 0x1b 0x18 0x07 0x10 0xa2 0xd7 0x63;
  e 0x1d 0x38 0x1b 0x22 0x9d 0x7b 0x32 0xb0 0xed;
  e 0xba 0x0d 0x05 0xdc 0x40 0x7c 0x32 0x30 0x6d;
  e 0xdd 0x93 0x2a 0xd7 0xd1 0xe2 0x32 0xbc 0x5c;
  e 0x5e 0x2a 0x0d 0x77 0xe8 0x69 0x32 0xd3 0xa0;
  e 0xcb 0x1b 0x54 0xfc 0x44 0x6a 0x32 0x65 0x55;
  e 0x4c 0x05 0xf4 0xed 0x1a 0x46 0x32 0xea 0x7d;
  e 0xac 0xf4 0x38 0xb4 0xe7 0x85 0x32 0x98 0x64;
  e 0x0f 0x54 0x93 0xc9 0x5d 0x17 0x32 0xca 0x30;
  e 0xa0 0x30 0x91 0xca 0x44 0x58 0xc4 0x51 0xe4;
  e 0xb7 0x2b 0x63 0x83 0xfa 0x43 0xc4 0xd9 0x4c;
  e 0x09 0x91 0x3c 0xe6 0x32 0x3d 0xc4 0xe2 0xc5;
  e 0xa5 0xae 0x2b 0x5d 0x72 0x02 0xc4 0xb5 0xfd;
  e 0xdf 0x3c 0xf0 0x78 0xd2 0x54 0xc4 0x62 0x01;
  e 0x9a 0x63 0x30 0x11 0x77 0xcf 0xc4 0x6f 0xb9;
  e 0x36 0xf0 0x4f 0xc2 0xf3 0x5c 0xc4 0x94 0x81;
  e 0xc8 0x4f 0xae 0x9d 0xa8 0x27 0xc4 0x82 0xa9;
  e 0xae 0xea 0xd2 0xe3 0xb6 0x2d 0xc9 0xc1 0x69;
  e 0xb4 0xa1 0xea 0xad 0x40 0xaf 0xc9 0x01 0xe8;
  e 0xec 0xd2 0x4a 0x92 0x60 0xdc 0xc9 0x48 0xc0;
  e 0x69 0xd0 0x84 0x72 0xd4 0x17 0xc9 0xf5 0xc8;
  e 0x53 0xb7 0xa1 0x63 0x09 0x70 0xc9 0xc4 0xe9;
  e 0x94 0x4a 0xf9 0xfc 0xa2 0x8d 0xc9 0x37 0x3d].
Definition A_13 : list aff := [
  e 0xba 0xf9 0xd0 0x99 0xe5 0xf7 0xc9 0x9e 0x71;
  e 0xe2 0x84 0xb7 0x61 0x0c 0x8a 0xc9 0xd9 0x2c;
  e 0x2e 0x7c 0xe8 0x8b 0x03 0xbc 0xf9 0x53 0x68;
  e 0x1b 0x5e 0x4a 0x25 0xf7 0x9e 0xf9 0xfc 0x0d;
  e 0x5b 0xc7 0x89 0xde 0x18 0xfe 0xf9 0x10 0x8c;
  e 0x62 0x4a 0x7c 0x12 0xa0 0x73 0xf9 0x5d 0x2d;
  e 0xef 0xe8 0x6b 0x48 0x19 0xd1 0xf9 0x0a 0x41;
  e 0xdb 0x6b 0xc7 0x68 0x76 0xab 0xf9 0xf0 0x94;
  e 0xd6 0x5c 0x5e 0x44 0x58 0x65 0xf9 0x7e 0x95;
  e 0xee 0x89 0x5c 0xff 0x7b 0x49 0xf9 0x9f 0x84;
  e 0x71 0x99 0x4e 0xb9 0xb8 0x1c 0xd8 0xcd 0x64;
  e 0xf4 0x24 0x10 0x62 0x06 0xa1 0xd8 0x2d 0x5c;
  e 0x49 0x8d 0x19 0x8b 0x20 0x08 0xd8 0xda 0x6d;
  e 0x8f 0x1a 0x24 0xce 0xf1 0x47 0xd8 0xb3 0x30;
  e 0xd1 0x4e 0xb5 0x84 0xd4 0x13 0xd8 0xdf 0xed;
  e 0xcc 0xb5 0x1a 0x0d 0x46 0x30 0xd8 0xbf 0x55;
  e 0xd2 0x19 0x99 0x2e 0xca 0x44 0xd8 0x35 0x7d;
  e 0x8c 0x10 0x8d 0xe1 0x37 0x4d 0xd8 0x04 0xa0;
  e 0x19 0x91 0x2e 0xc2 0x4c 0xd0 0x35 0xda 0x65;
  e 0xbe 0xd1 0x91 0x57 0xe1 0xa5 0x35 0xbc 0xb8;
  e 0x58 0xdc 0xee 0x43 0xb5 0x9d 0x35 0xe3 0x10;
  e 0x0a 0x2e 0xfc 0xcf 0x0b 0x5a 0x35 0x0e 0x6c;
  e 0x15 0xf0 0xd1 0x45 0x53 0xb1 0x35 0x0f 0x89;
  e 0xca 0x65 0xdc 0x6e 0x59 0x11 0x35 0x49 0xcd;
  e 0x54 0xfc 0x65 0xb0 0x9f 0xbd 0x35 0x77 0xfc;
  e 0x1a 0x14 0xce 0xc1 0x77 0xe8 0xb3 0xbf 0xff;
  e 0x09 0x41 0x65 0x36 0x9c 0xbd 0xb3 0x4c 0xe7;
  e 0xf1 0x65 0x07 0x56 0x82 0x2a 0xb3 0xcc 0x63;
  e 0xbe 0x8c 0x14 0x0a 0x84 0xc3 0xb3 0xd9 0xbe;
  e 0x57 0xce 0x41 0x4a 0x33 0x81 0xb3 0x88 0x6b;
  e 0xe6 0x07 0x68 0x9b 0x8d 0xfb 0xb3 0xe3 0xf6;
  e 0xf5 0xae 0x8c 0x23 0xd5 0x52 0xb3 0xec 0xd6;
  e 0x18 0x68 0xae 0xea 0x86 0x27 0xb3 0xd2 0xfb;
  e 0xda 0x8c 0xb3 0xec 0x42 0xe9 0x03 0x29 0x0b;
  e 0x46 0x16 0xd1 0xc9 0xa0 0x70 0x03 0xcf 0x5a;
  e 0xe2 0x08 0xf6 0xf7 0x60 0x6d 0x03 0x4d 0x66;
  e 0xa6 0x35 0x08 0x95 0x04 0x53 0x03 0xb1 0x6a;
  e 0x20 0xf6 0x8c 0xf2 0x78 0x90 0x03 0x4a 0xca;
  e 0xc0 0xb3 0x30 0xcb 0xdf 0xd5 0x03 0x52 0xb7;
  e 0x87 0x30 0x16 0x72 0xde 0x55 0x03 0x13 0x6f;
  e 0xbf 0xd1 0x35 0x0f 0xff 0xb4 0x03 0x12 0x3a;
  e 0xd1 0x45 0x0f 0x8f 0xc4 0x73 0x12 0xcf 0xb6;
  e 0x84 0xb0 0x85 0x74 0xea 0x86 0x12 0x79 0xf3;
  e 0xff 0x85 0x10 0xa8 0x76 0xa1 0x12 0x46 0xc7;
  e 0xdb 0xe2 0x45 0xd9 0x72 0xc6 0x12 0x17 0xce;
  e 0xbc 0x0f 0xb0 0x7d 0x2d 0x2b 0x12 0xaf 0xee;
  e 0xe7 0x10 0x4c 0xfa 0xf6 0x26 0x12 0xbe 0x26;
  e 0xb2 0xd3 0xe2 0x25 0xca 0xe5 0x12 0x3e 0x2e;
  e 0x98 0x4c 0xd3 0x3a 0x3b 0x68 0x12 0xda 0xdf;
  e 0x24 0xa2 0xfe 0xa6 0x19 0xa7 0x76 0x7a 0x30;
  e 0xc0 0x11 0x5f 0x90 0x04 0x14 0x76 0xb0 0xed;
  e 0xdd 0xfe 0xf5 0xba 0x25 0x8d 0x76 0x48 0x5c;
  e 0xae 0xf4 0x11 0x2d 0xce 0x87 0x76 0x47 0x64;
  e 0xc5 0xf5 0x26 0xec 0xea 0xf0 0x76 0x27 0xa0;
  e 0xa4 0x5f 0xa2 0x91 0x44 0x2c 0x76 0x08 0x55;
  e 0xd7 0x26 0x43 0x03 0xd9 0x55 0x76 0x74 0x6d;
  e 0x21 0x43 0xf4 0xa9 0x81 0x46 0x76 0xe8 0x7d;
  e 0xd8 0xb3 0xac 0x8b 0x45 0x84 0x30 0xc3 0x29;
  e 0xef 0x66 0x63 0x73 0x58 0x51 0x30 0x11 0x11;
  e 0x8f 0x14 0xb3 0xd9 0x55 0x13 0x30 0xcb 0x45;
  e 0x40 0x63 0x8e 0x1c 0xcd 0x64 0x30 0x5e 0x98;
  e 0x3a 0x8e 0x14 0xd6 0x38 0xb9 0x30 0x36 0x20;
  e 0x0d 0x6c 0xdc 0x29 0x15 0x5b 0x30 0xd3 0x18;
  e 0x47 0xac 0x6c 0xf9 0xd7 0xab 0x30 0xa6 0xd5].
Definition A_14 : list aff := [
  e 0x88 0xdc 0x66 0x0b 0x7f 0xdb 0x30 0x34 0x08;
  e 0x32 0x65 0x35 0x77 0x8b 0xb4 0x7b 0xde 0x68;
  e 0x22 0xfd 0x8e 0x76 0xd8 0x2c 0x7b 0x4d 0x94;
  e 0xe3 0x75 0x3e 0xad 0x3a 0xa4 0x7b 0x64 0x84;
  e 0xcb 0x2f 0x65 0xc5 0x18 0x85 0x7b 0xb7 0x2d;
  e 0x61 0x8e 0x75 0x7f 0x78 0x24 0x7b 0xc7 0x8c;
  e 0x6a 0x35 0xfd 0x2d 0xf1 0x9f 0x7b 0xbd 0x41;
  e 0xc0 0x3e 0x3c 0x46 0xea 0x94 0x7b 0x67 0x95;
  e 0xf3 0x3c 0x2f 0x06 0x12 0xed 0x7b 0x26 0x0d;
  e 0x06 0x39 0x8f 0x8a 0x43 0x87 0x5e 0xaa 0xb6;
  e 0x63 0xdf 0x1c 0x9c 0x35 0x61 0x5e 0x11 0xf3;
  e 0xb8 0x5c 0xd2 0x69 0x9b 0xe2 0x5e 0x2f 0x26;
  e 0x90 0xa1 0x39 0x92 0xf8 0x41 0x5e 0x47 0xce;
  e 0x70 0x1c 0x5c 0x17 0x9e 0xfc 0x5e 0x44 0xc7;
  e 0x2d 0x8f 0xdf 0x77 0x0b 0x6f 0x5e 0x0c 0xee;
  e 0xcd 0xd2 0x04 0x4c 0x33 0x32 0x5e 0xef 0xdf;
  e 0xdd 0x04 0xa1 0x9f 0xb3 0xba 0x5e 0x2a 0x2e;
  e 0x99 0xc2 0x0d 0x1d 0x81 0xcb 0xf7 0x5c 0x2e;
  e 0xc0 0xa5 0x93 0x24 0xf1 0xac 0xf7 0x45 0xb6;
  e 0xc9 0xf5 0x13 0xad 0xdf 0xfc 0xf7 0xeb 0x26;
  e 0x69 0x73 0xf5 0x3b 0x68 0x8d 0xf7 0x44 0xc7;
  e 0x97 0x0d 0xa5 0x95 0x4f 0xf3 0xf7 0x33 0xce;
  e 0x17 0x13 0xc2 0x7b 0x98 0xed 0xf7 0x74 0xdf;
  e 0xe9 0x93 0x9b 0xdc 0x48 0x6d 0xf7 0xfd 0xee;
  e 0x90 0x9b 0x73 0x6a 0x58 0x92 0xf7 0xfb 0xf3;
  e 0xf2 0x15 0x4d 0xf3 0x04 0x41 0x72 0xd3 0x9e;
  e 0x24 0xc1 0x8b 0xc5 0x5a 0x95 0x72 0x39 0x42;
  e 0xac 0x8b 0xc3 0xcb 0x74 0xad 0x72 0x0b 0x32;
  e 0x8a 0x93 0x15 0x3b 0xee 0xb5 0x72 0x47 0x4e;
  e 0x92 0x4d 0xc1 0xa3 0x40 0x6b 0x72 0x4f 0xba;
  e 0xa6 0xc3 0x73 0x99 0xca 0x97 0x72 0x23 0x7b;
  e 0x70 0x43 0x93 0x89 0xe6 0x17 0x72 0x9d 0xea;
  e 0xb4 0x73 0x43 0x07 0xa8 0x55 0x72 0x25 0xfe;
  e 0x1f 0xb2 0x55 0x8e 0x13 0x36 0xfb 0x2e 0xe1;
  e 0x58 0x89 0xb2 0xbd 0x4c 0xf6 0xfb 0xe9 0x34;
  e 0x18 0x55 0xd2 0x19 0xa7 0x2a 0xfb 0x99 0xf9;
  e 0x9b 0x1e 0x6a 0x35 0xff 0x9a 0xfb 0xfd 0x78;
  e 0x37 0xfa 0x89 0x05 0x3c 0x7e 0xfb 0x26 0x1d;
  e 0xb3 0xd2 0xc9 0xc1 0x2b 0x56 0xfb 0x71 0xf1;
  e 0x27 0xc9 0x1e 0x6e 0x24 0xb6 0xfb 0x2d 0xe0;
  e 0x67 0x6a 0xfa 0x4e 0x34 0x15 0xfb 0x22 0x58;
  e 0x9d 0xfe 0x06 0x1a 0xa1 0xb3 0xf5 0xab 0xc3;
  e 0x5d 0x1b 0x9f 0xfb 0xe4 0x56 0xf5 0x82 0x5b;
  e 0x6c 0x53 0x73 0x67 0xfc 0xeb 0xf5 0x3b 0xb2;
  e 0xd4 0x9f 0xfe 0x52 0xf0 0x27 0xf5 0xba 0xbb;
  e 0x18 0x06 0xdb 0xf6 0x34 0xbe 0xf5 0xae 0x9b;
  e 0x10 0xdb 0x53 0x7a 0x50 0x96 0xf5 0xfa 0x86;
  e 0xa0 0x72 0x1b 0x8e 0xcd 0xca 0xf5 0x97 0xaa;
  e 0xd0 0x73 0x72 0x23 0xe0 0x3e 0xf5 0x9e 0x53;
  e 0x4e 0xf4 0x76 0xe8 0xab 0x0a 0x09 0x84 0x76;
  e 0xb0 0x7d 0xaf 0xcf 0x0c 0x83 0x09 0xfa 0x0a;
  e 0x57 0x06 0x7d 0xaa 0x92 0xf1 0x09 0x41 0x0f;
  e 0x8e 0x76 0x4d 0xbd 0xac 0x81 0x09 0x46 0xd3;
  e 0x39 0x3a 0x28 0x36 0x1c 0xc4 0x09 0x64 0xc6;
  e 0xa0 0x28 0xf4 0xd4 0xcb 0xdf 0x09 0x91 0xa7;
  e 0x79 0xaf 0x3a 0x3d 0xfc 0x58 0x09 0x61 0x36;
  e 0xc7 0x4d 0x06 0xe6 0xb2 0xb3 0x09 0xe4 0x82;
  e 0xdf 0x3b 0x49 0x54 0x2c 0x5a 0x52 0xda 0x25;
  e 0x23 0x0b 0x3b 0x37 0x50 0x38 0x52 0xe7 0x15;
  e 0xc3 0xcb 0x0b 0x39 0x6f 0xaa 0x52 0x89 0x40;
  e 0xb3 0xd9 0xcb 0x36 0x3c 0xea 0x52 0x29 0xad;
  e 0xa2 0xd7 0xa8 0xfb 0xe3 0xb6 0x52 0xa6 0xd9;
  e 0xbe 0x46 0xd9 0xa5 0xf2 0x27 0x52 0x94 0xc9;
  e 0x10 0xa8 0x46 0x79 0xef 0x9b 0x52 0x25 0xb4].
Definition A_15 : list aff := [
  e 0x3f 0xa4 0x78 0x08 0x90 0x4d 0x49 0x14 0x59;
  e 0xd6 0x17 0x7e 0xe7 0x85 0xfe 0x49 0x07 0xb5;
  e 0x65 0x61 0x6e 0xe4 0xac 0x88 0x49 0x77 0x04;
  e 0x8c 0x3b 0xc8 0xab 0xf0 0xd2 0x49 0x8d 0x9d;
  e 0xf9 0x7e 0x61 0x8b 0xcf 0xde 0x49 0xbb 0x48;
  e 0x59 0x78 0x3b 0x71 0x7a 0xd8 0x49 0x54 0x9c;
  e 0xff 0x6e 0xa4 0xa1 0x09 0xce 0x49 0xf1 0xbd;
  e 0x5f 0xc8 0x17 0xb2 0xf5 0x68 0x49 0xbe 0x1c;
  e 0x0c 0x72 0x1f 0xb2 0x21 0xa8 0x1b 0x55 0x91;
  e 0xfd 0x1f 0xbf 0x49 0x16 0xde 0x1b 0x18 0xb0;
  e 0x86 0x43 0x72 0x25 0x56 0x82 0x1b 0x8e 0xcc;
  e 0x47 0x38 0xb8 0x2e 0x3d 0xf9 0x1b 0x2f 0xf4;
  e 0x3c 0xa5 0xaf 0x98 0x66 0x64 0x1b 0x78 0x88;
  e 0xd6 0xb8 0xa5 0xd2 0x90 0x62 0x1b 0x5e 0xdc;
  e 0xc6 0xbf 0x38 0x9e 0x6a 0x65 0x1b 0x22 0x74;
  e 0x1c 0xaf 0x43 0x3f 0xc0 0x75 0x1b 0xf3 0x39;
  e 0xeb 0x63 0x65 0x15 0x22 0xbe 0xf6 0x28 0xa8;
  e 0x36 0x97 0x08 0xa5 0x90 0x4a 0xf6 0xf7 0xa8;
  e 0x96 0x65 0xa3 0xea 0x40 0x4e 0xf6 0x51 0x7c;
  e 0xbd 0x08 0x8a 0xe8 0xd9 0x23 0xf6 0xe1 0x7c;
  e 0xd0 0x68 0x63 0xb1 0x8f 0x43 0xf6 0xa8 0x44;
  e 0xfb 0x2e 0x97 0x6e 0xe0 0x05 0xf6 0x33 0x44;
  e 0x60 0xea 0x7c 0x5b 0xd3 0xee 0x51 0xc8 0x6a;
  e 0x73 0x6a 0xfb 0xfd 0xe3 0x3f 0x51 0x7b 0x6f;
  e 0x65 0x1d 0xea 0xfe 0xf0 0x48 0x51 0x28 0x3a;
  e 0x44 0xfb 0x1d 0x4b 0xb1 0xff 0x51 0x9a 0x5a;
  e 0x26 0x7c 0xdf 0x8c 0xd5 0x29 0x51 0x69 0x66;
  e 0x30 0x5e 0xca 0x8b 0x97 0x0b 0x51 0x6f 0x0b;
  e 0x40 0xdf 0x5e 0x0c 0x83 0xdb 0x51 0xeb 0xca;
  e 0x64 0xca 0x6a 0x49 0xb0 0xce 0x51 0xbd 0xb7;
  e 0xde 0x6f 0x05 0x82 0xf3 0x98 0xfe 0x7f 0xf0;
  e 0xf9 0x9f 0xbb 0x12 0xed 0x68 0xfe 0x21 0x05;
  e 0x40 0x15 0xbf 0xd1 0x0a 0x1c 0xfe 0x35 0xa5;
  e 0x49 0xbb 0x6f 0x08 0x83 0xb2 0xfe 0x6c 0x3c;
  e 0xe7 0x05 0xb8 0x86 0xc4 0x0c 0xfe 0x02 0x61;
  e 0x0e 0xb8 0x15 0x4b 0x6d 0x4f 0xfe 0x0f 0xd1;
  e 0xee 0xa2 0x9f 0xa8 0xb3 0xab 0xfe 0x52 0x8d;
  e 0x29 0xbf 0xa2 0xd2 0x8d 0x48 0xfe 0xa6 0x51;
  e 0xf0 0x78 0x62 0xe2 0x2f 0xc9 0xba 0x5d 0xbd;
  e 0x55 0x86 0x78 0xf7 0x1e 0x8d 0xba 0x7d 0x04;
  e 0x41 0x18 0xa8 0x99 0x8e 0xa9 0xba 0x36 0x1c;
  e 0x21 0x52 0x86 0xdc 0x9a 0xe3 0xba 0xb6 0x48;
  e 0x5e 0x47 0x18 0x9c 0x0e 0x4c 0xba 0x0d 0x9d;
  e 0x90 0x83 0x47 0xac 0x81 0x32 0xba 0x6c 0x9c;
  e 0x9f 0xa8 0x52 0xa6 0x71 0xa3 0xba 0x82 0xb5;
  e 0x46 0x59 0x39 0x70 0xb9 0xb8 0x7c 0x64 0x0c;
  e 0xa7 0xb2 0x4a 0xe2 0xbc 0x53 0x7c 0x12 0xd8;
  e 0xaf 0x04 0xb2 0x8a 0xf5 0x99 0x7c 0x3e 0xbc;
  e 0xdc 0x39 0x82 0x28 0x8e 0xa4 0x7c 0x09 0xac;
  e 0x4c 0x88 0xea 0x34 0x29 0x69 0x7c 0x5b 0x60;
  e 0x32 0xea 0x59 0xfc 0x11 0x77 0x7c 0x31 0x50;
  e 0x41 0x4a 0x88 0xbf 0x16 0xd7 0x7c 0x9b 0x35;
  e 0xad 0x82 0x04 0x3b 0x50 0x63 0x7c 0xcc 0xc1;
  e 0x8e 0x9c 0x8b 0x57 0x03 0x23 0xc2 0xe9 0xde;
  e 0xca 0x8b 0x6f 0xeb 0xfa 0xf6 0xc2 0x4b 0xaf;
  e 0x27 0x13 0x9c 0x4a 0x60 0x6e 0xc2 0xe0 0xe3;
  e 0x5a 0xfe 0xaf 0x04 0x01 0x83 0xc2 0xb2 0x4b;
  e 0xb7 0x1b 0xe3 0x1a 0x59 0x66 0xc2 0x64 0x4a;
  e 0x31 0xaf 0x1b 0x78 0xdd 0x10 0xc2 0xa7 0xa2;
  e 0xbd 0x6f 0xfe 0x6c 0xd7 0xd0 0xc2 0x8a 0x67;
  e 0x02 0xe3 0x13 0x3e 0xcb 0x5c 0xc2 0x7b 0x23;
  e 0x3d 0x9c 0xff 0x16 0xb4 0xcf 0x11 0x97 0x58;
  e 0x58 0xff 0xe3 0xf1 0xe4 0xbd 0x11 0x88 0x1d;
  e 0x6e 0x94 0x3a 0x80 0x3b 0xc7 0x11 0xdd 0xf9].
Definition A_16 : list aff := [
  e 0x1a 0x3a 0xb8 0xe8 0x29 0x78 0x11 0x1e 0xf1;
  e 0x66 0xb8 0x73 0x83 0x8a 0xeb 0x11 0x34 0xe0;
  e 0x35 0xe3 0xf4 0x57 0x14 0xb0 0x11 0x2d 0x34;
  e 0xdf 0x73 0x9c 0x5a 0x0e 0x31 0x11 0x0c 0x78;
  e 0x36 0x40 0x34 0x35 0x4b 0xa5 0xc8 0x4f 0x92;
  e 0xc7 0xcb 0xb9 0x54 0x5e 0xe6 0xc8 0x32 0xcb;
  e 0x15 0x3b 0x47 0x9d 0x9f 0x16 0xc8 0xc5 0x8e;
  e 0xd4 0xb9 0xe9 0x27 0x75 0x5c 0xc8 0x64 0x8a;
  e 0xd3 0x47 0xcb 0x2f 0x9e 0xa2 0xc8 0x65 0xa3;
  e 0x38 0xe9 0x40 0xb7 0xaf 0xc4 0xc8 0xf2 0x1e;
  e 0x31 0x5b 0x3b 0x10 0x68 0xbe 0xc8 0xab 0x83;
  e 0xea 0x34 0x5b 0x9b 0xa6 0x19 0xc8 0x28 0x16;
  e 0x77 0xf9 0xbe 0x20 0x4b 0x03 0xa6 0xbc 0xc0;
  e 0xf0 0xfb 0x59 0xaf 0x66 0xa7 0xa6 0x2a 0xc8;
  e 0x2d 0x88 0xe8 0x70 0xd9 0x72 0xa6 0xde 0xe8;
  e 0xe3 0xf1 0x88 0x97 0xbb 0xad 0xa6 0x80 0xe9;
  e 0xac 0xe8 0xf9 0x53 0x2f 0xb4 0xa6 0xc3 0x69;
  e 0xbf 0xbe 0xd2 0x91 0x54 0xe2 0xa6 0x35 0x3d;
  e 0xd7 0xd2 0xfb 0x99 0xcc 0x28 0xa6 0xd8 0x71;
  e 0x8d 0x59 0xf1 0x95 0xf8 0xa3 0xa6 0x40 0x2c;
  e 0xa1 0x81 0x77 0x2b 0xcf 0xd9 0xab 0xd4 0x18;
  e 0x30 0xd3 0x22 0x1c 0x35 0x8b 0xab 0xd0 0x11;
  e 0xf9 0x10 0x21 0x25 0xfb 0x48 0xab 0xb6 0x20;
  e 0xa8 0x87 0x81 0x13 0xcb 0x74 0xab 0xd5 0xd5;
  e 0x5b 0x22 0x10 0x71 0xa7 0xd1 0xab 0x28 0x98;
  e 0x0d 0x77 0xd3 0xbc 0x53 0x84 0xab 0xb4 0x08;
  e 0xfe 0x21 0x1a 0x86 0x94 0xd2 0xab 0xba 0x45;
  e 0x68 0x1a 0x87 0xe1 0xaa 0x42 0xab 0xea 0x29;
  e 0x16 0x84 0xc9 0xf5 0x25 0x56 0xcf 0x13 0x2b;
  e 0x58 0x2c 0x88 0x18 0x85 0x31 0xcf 0x20 0x62;
  e 0xbd 0xa6 0x84 0x23 0xcb 0xbb 0xcf 0xad 0x52;
  e 0xc3 0x8f 0x5e 0xaa 0x93 0x5d 0xcf 0xfd 0x46;
  e 0xa0 0x5e 0x51 0xeb 0x34 0x43 0xcf 0x87 0x8f;
  e 0xc4 0x51 0x2c 0xc2 0x08 0x83 0xcf 0xdb 0x22;
  e 0x11 0x88 0xa6 0x80 0x71 0x5a 0xcf 0xe7 0x77;
  e 0x45 0xc9 0x8f 0x02 0xb5 0xd4 0xcf 0x17 0xf2;
  e 0x72 0x0b 0x52 0x89 0x42 0xa3 0x95 0x0e 0xae;
  e 0x90 0x6e 0x5b 0x41 0xd3 0x53 0x95 0x3e 0x9a;
  e 0xac 0x56 0x0b 0x85 0x31 0x6b 0x95 0x19 0x1b;
  e 0xc5 0x44 0x57 0x06 0xa1 0xec 0x95 0x7d 0xe2;
  e 0x91 0x57 0xbc 0x0f 0x2f 0x6a 0x95 0xb0 0x5f;
  e 0xda 0xbc 0x6e 0x1d 0xf4 0x14 0x95 0x84 0x06;
  e 0x6d 0x5b 0x56 0xaf 0x82 0xf3 0x95 0x5f 0x07;
  e 0xad 0x52 0x44 0x63 0x58 0x6f 0x95 0xaa 0xe6;
  e 0x8f 0x58 0x77 0x8c 0xe8 0xd9 0x0c 0xaa 0x42;
  e 0x0e 0x19 0x0f 0x75 0x5c 0x98 0x0c 0x66 0xea;
  e 0x0b 0x85 0x19 0x5f 0xa7 0x08 0x0c 0x06 0xfe;
  e 0x4f 0x9a 0x70 0xc6 0xd4 0x1b 0x0c 0x9d 0x9e;
  e 0xfe 0x0f 0x9a 0xa8 0xe3 0x82 0x0c 0xcd 0x4e;
  e 0xce 0x5a 0x85 0xb2 0x6c 0xdb 0x0c 0xd0 0x7b;
  e 0x73 0x77 0x5a 0xe5 0xda 0xfa 0x0c 0x34 0x32;
  e 0x86 0x70 0x58 0x93 0x92 0xfd 0x0c 0x72 0xba;
  e 0x3e 0x1e 0xc5 0x38 0xe7 0x96 0x7a 0x7d 0xd6;
  e 0xb6 0x82 0x7c 0x09 0x30 0x0a 0x7a 0x13 0xe7;
  e 0xeb 0xc5 0xd2 0x57 0x90 0x37 0x7a 0x95 0xbe;
  e 0xa2 0xd2 0xa6 0x35 0x8b 0x5a 0x7a 0x08 0xff;
  e 0x19 0x7c 0xc6 0xb1 0xb5 0x8e 0x7a 0xa4 0x63;
  e 0xa0 0xed 0x1e 0x58 0x92 0x1f 0x7a 0x21 0xfb;
  e 0x2a 0xc6 0xed 0xf6 0x26 0x4e 0x7a 0xee 0xf6;
  e 0x52 0xa6 0x82 0x36 0xcd 0x54 0x7a 0xe2 0x6b;
  e 0x11 0x34 0xd9 0xf1 0x72 0x80 0x78 0x6b 0x1e;
  e 0xeb 0xd9 0xe9 0x37 0x60 0x15 0x78 0xfd 0x92;
  e 0xaa 0x86 0xcd 0xe6 0x2e 0x4a 0x78 0xef 0x83;
  e 0xa5 0xcd 0x98 0x04 0x06 0x79 0x78 0x5e 0x8e].
Definition A_17 : list aff := [
  e 0x27 0x98 0xa4 0xb6 0xd8 0x54 0x78 0x08 0xa3;
  e 0x5c 0xa4 0x0b 0xa2 0xc5 0x10 0x78 0x76 0xcb;
  e 0xe8 0xe9 0x86 0x9b 0xc9 0x5d 0x78 0xf7 0x16;
  e 0x66 0x0b 0x34 0xd3 0xee 0xc7 0x78 0xd6 0x8a;
  e 0x7f 0x54 0x4d 0x87 0xf1 0x41 0x06 0xe6 0x96;
  e 0x07 0x5f 0x54 0xba 0x2e 0x4c 0x06 0x33 0x56;
  e 0x6a 0xbb 0xfe 0x21 0xbe 0xae 0x06 0x1a 0x3e;
  e 0xa7 0x4d 0x38 0x63 0xb9 0x5e 0x06 0xce 0xab;
  e 0xb4 0xfe 0xc2 0x8a 0xe5 0xed 0x06 0x68 0xd7;
  e 0x85 0xc2 0x5f 0x7c 0xd3 0xd7 0x06 0xd0 0x3f;
  e 0x14 0xff 0xbb 0x46 0x74 0xec 0x06 0x86 0x12;
  e 0x90 0x38 0xff 0xc9 0x9a 0x2d 0x06 0x39 0xda;
  e 0xde 0x80 0x91 0x42 0x36 0x0e 0xe7 0x05 0xe9;
  e 0xff 0x16 0x97 0x0c 0xc2 0x98 0xe7 0x10 0xc8;
  e 0xe1 0x14 0x2f 0x86 0xc9 0x7d 0xe7 0x2d 0xc0;
  e 0x88 0x97 0x80 0x40 0x6b 0xfe 0xe7 0x20 0x2c;
  e 0x0b 0x91 0x37 0xfa 0x92 0xf8 0xe7 0x89 0xe8;
  e 0x71 0x37 0x14 0x01 0x09 0xb9 0xe7 0x58 0x69;
  e 0x62 0x7b 0x16 0xb2 0xd7 0x12 0xe7 0xed 0x71;
  e 0x50 0x2f 0x7b 0x26 0x1a 0xa1 0xe7 0xc3 0x3d;
  e 0xc6 0xe6 0x22 0x68 0xbe 0xa8 0xde 0xb3 0x1a;
  e 0x1b 0x22 0xb0 0x98 0x06 0xb2 0xde 0xd7 0x2f;
  e 0x88 0x45 0x70 0x74 0xdf 0x0b 0xde 0x80 0x13;
  e 0x8b 0x70 0x5d 0xe5 0xf7 0xe0 0xde 0xcb 0xbf;
  e 0x65 0xb0 0x77 0x0e 0x31 0xfe 0xde 0xb7 0x4f;
  e 0x49 0x77 0x45 0x71 0x95 0xe7 0xde 0x6f 0x1f;
  e 0xd9 0xb5 0xe6 0x42 0xba 0x25 0xde 0xe3 0xc2;
  e 0x2b 0x5d 0xb5 0x82 0x8e 0x13 0xde 0xca 0x7e;
  e 0xaa 0x47 0x17 0x27 0x25 0xfb 0x18 0xe4 0x8e;
  e 0x39 0x92 0x47 0x2a 0xa9 0x36 0x18 0x9c 0x83;
  e 0xbb 0x95 0xb9 0xea 0xb8 0x31 0x18 0x6b 0x92;
  e 0x16 0x0b 0x95 0x19 0x4f 0xb7 0x18 0x0c 0x1e;
  e 0x5a 0xb9 0x92 0xf6 0x60 0x05 0x18 0x3c 0x16;
  e 0x9d 0xb4 0x0b 0xc2 0x7f 0x10 0x18 0x06 0x8a;
  e 0xe6 0x49 0xb4 0x6c 0x12 0xf5 0x18 0x68 0xcb;
  e 0x1f 0x17 0x49 0xbe 0x76 0xb3 0x18 0x55 0xa3;
  e 0x04 0xd1 0x8a 0x96 0xfa 0x1f 0x3e 0xcc 0xbb;
  e 0xd3 0x8a 0x25 0xa2 0x8d 0x7a 0x3e 0xda 0xc3;
  e 0x05 0x41 0xd1 0x4e 0x28 0xb1 0x3e 0xb5 0x5b;
  e 0x6e 0x4f 0x41 0xc7 0x47 0x81 0x3e 0x84 0xaa;
  e 0x23 0xac 0x4f 0x38 0x0f 0x5c 0x3e 0x32 0x53;
  e 0xa0 0x25 0x97 0xdf 0x0b 0xeb 0x3e 0x1e 0x9b;
  e 0xca 0x75 0xac 0x7e 0x88 0xbb 0x3e 0x98 0xb2;
  e 0xf5 0x97 0x75 0x1a 0x94 0x67 0x3e 0xad 0x86;
  e 0x7d 0xb6 0xac 0xf8 0x05 0x40 0x2b 0x19 0xa1;
  e 0x8b 0x2f 0xae 0x0c 0x43 0xd9 0x2b 0x5d 0xa1;
  e 0x86 0xdc 0xb6 0x82 0xa7 0x01 0x2b 0x7c 0x99;
  e 0xe4 0x16 0x03 0x13 0x23 0xe0 0x2b 0xbb 0xd4;
  e 0x5b 0x03 0x2f 0xc6 0x17 0xde 0x2b 0x55 0x99;
  e 0x59 0xac 0x16 0x0b 0xc5 0x71 0x2b 0x95 0xec;
  e 0x12 0x79 0xdc 0x3a 0x4e 0x8f 0x2b 0x09 0xd4;
  e 0x84 0xae 0x79 0xb9 0x5e 0x73 0x2b 0x61 0xec;
  e 0xa3 0xea 0x51 0x28 0x35 0x20 0x6b 0xa5 0x42;
  e 0x85 0x51 0xe8 0xd7 0xab 0xf0 0x6b 0x48 0x32;
  e 0x95 0x0e 0xea 0x0f 0x86 0xaf 0x6b 0x0c 0xba;
  e 0x34 0x1e 0xf1 0xb5 0x47 0xbf 0x6b 0xd6 0xfe;
  e 0x24 0xe0 0x39 0xa7 0x01 0x41 0x6b 0x33 0x4e;
  e 0x69 0xf1 0xe0 0x53 0x3e 0x3b 0x6b 0x1f 0xea;
  e 0xb8 0xe8 0x1e 0xdd 0xa2 0x22 0x6b 0x16 0x7b;
  e 0x72 0x39 0x0e 0x07 0xc2 0xf3 0x6b 0x66 0x9e;
  e 0x9a 0x40 0xa7 0x8e 0xd8 0x09 0xa0 0x30 0x83;
  e 0x66 0x33 0xd7 0xeb 0x68 0x7a 0xa0 0x50 0xa3;
  e 0x2a 0xd7 0xbc 0xca 0xf7 0x3e 0xa0 0xed 0xcb;
  e 0xc3 0x2d 0x40 0xdf 0xb8 0xc4 0xa0 0x5e 0x16].
Definition A_18 : list aff := [
  e 0x39 0xa7 0x33 0x1f 0x1d 0x4e 0xa0 0x28 0x8e;
  e 0xd3 0xbc 0xb4 0xd4 0xde 0xf5 0xa0 0x25 0x8a;
  e 0x2f 0x86 0x2d 0x58 0xce 0xcf 0xa0 0x0c 0x92;
  e 0xd0 0xb4 0x86 0x43 0xf2 0x5d 0xa0 0x72 0x1e;
  e 0x33 0x14 0xd4 0xf9 0x17 0x9e 0x3c 0x6a 0xdf;
  e 0xf4 0xd4 0x91 0x64 0x54 0x62 0x3c 0xe6 0x2e;
  e 0x60 0x3e 0x14 0xff 0xb0 0x88 0x3c 0xbb 0x26;
  e 0x84 0x91 0xaa 0x86 0xf2 0x1b 0x3c 0xcd 0xce;
  e 0x0e 0xac 0x3e 0x98 0xed 0x26 0x3c 0x46 0xc7;
  e 0xb9 0xa3 0xf6 0x51 0x34 0x29 0x3c 0x6b 0xee;
  e 0x42 0xf6 0xac 0xef 0xc1 0x40 0x3c 0x4e 0xf3;
  e 0xd6 0xaa 0xa3 0xfe 0x19 0x1c 0x3c 0xa5 0xb6;
  e 0x91 0x42 0x05 0x20 0x4f 0x0f 0xb8 0x86 0x2c;
  e 0xe9 0x26 0xc1 0x69 0x5b 0x6b 0xb8 0xee 0xe8;
  e 0xa4 0x13 0x38 0xdd 0x62 0x5e 0xb8 0x2e 0x71;
  e 0x7c 0x09 0x13 0xe2 0xca 0xfc 0xb8 0x58 0x3d;
  e 0x89 0x05 0x26 0x22 0xbe 0xf0 0xb8 0x19 0xe9;
  e 0x70 0x38 0x42 0xf2 0x27 0xcd 0xb8 0x5c 0xc8;
  e 0x85 0xc1 0x3a 0x7f 0xeb 0x34 0xb8 0xe8 0x69;
  e 0xdc 0x3a 0x09 0x61 0xce 0x77 0xb8 0x0b 0xc0;
  e 0x1e 0x58 0x21 0xee 0xbe 0x48 0x60 0x35 0x69;
  e 0x0e 0x23 0x90 0x4f 0x04 0x33 0x60 0x3e 0xc8;
  e 0x7d 0x21 0x36 0x40 0xb8 0x51 0x60 0x34 0xc0;
  e 0x65 0x36 0x4c 0x88 0x6c 0x26 0x60 0xea 0x3d;
  e 0x0d 0x90 0x5d 0x5b 0x72 0xe0 0x60 0x95 0x2c;
  e 0xbc 0x8d 0x58 0xff 0x61 0xfd 0x60 0xe3 0xe8;
  e 0x75 0x5d 0x8d 0x59 0xb6 0x4d 0x60 0xf1 0xe9;
  e 0xcc 0x4c 0x23 0xf4 0xcb 0x3c 0x60 0x32 0x71;
  e 0x60 0xe3 0x11 0x88 0x77 0x5b 0x4d 0xa6 0x3b;
  e 0xfd 0x11 0x76 0x47 0xb3 0xe4 0x4d 0xbd 0xeb;
  e 0xbc 0x15 0xe3 0x2b 0x56 0xe0 0x4d 0x80 0x9f;
  e 0xe1 0xf7 0x15 0xf8 0x6b 0x4f 0x4d 0xf3 0x8b;
  e 0x08 0xa5 0xf7 0x33 0x3e 0x50 0x4d 0xb1 0x0e;
  e 0x59 0x76 0x54 0x01 0x5e 0xce 0x4d 0x87 0xcf;
  e 0xd8 0xda 0xa5 0x84 0x0f 0x62 0x4d 0x6a 0x47;
  e 0x49 0x54 0xda 0xe7 0x96 0xa1 0x4d 0x79 0x37;
  e 0xd5 0xc7 0xf9 0xf0 0x9b 0x8d 0xc5 0xb6 0x26;
  e 0x3b 0xf9 0x9d 0x21 0xa8 0x76 0xc5 0xab 0xdf;
  e 0x9f 0xcf 0xe0 0xa3 0x05 0x85 0xc5 0x31 0xb6;
  e 0xb4 0xe0 0xdf 0xec 0xb9 0x6f 0xc5 0xf8 0xee;
  e 0xdd 0x9d 0x88 0x06 0x6c 0xd7 0xc5 0xf5 0x2e;
  e 0x22 0x88 0xcf 0x20 0x0c 0x07 0xc5 0x98 0xce;
  e 0xad 0x1e 0xc7 0xa7 0xd8 0x91 0xc5 0x44 0xc7;
  e 0x97 0xdf 0x1e 0xda 0x37 0x95 0xc5 0x38 0xf3;
  e 0xcb 0x80 0x68 0x6a 0x96 0xec 0x91 0x39 0x70;
  e 0xa7 0x8e 0x30 0x5e 0x3d 0xe2 0x91 0xca 0xa4;
  e 0x8d 0xd1 0x8e 0x9c 0x3f 0x2c 0x91 0x8b 0x14;
  e 0xa9 0xd4 0x74 0xe9 0xea 0xb8 0x91 0xc8 0x24;
  e 0x28 0x30 0xd4 0x0f 0x1b 0xcd 0x91 0x64 0xd0;
  e 0xc5 0xb6 0xd1 0x20 0xd0 0xda 0x91 0x57 0x85;
  e 0xd5 0x68 0xb6 0x90 0x4d 0x95 0x91 0x50 0x49;
  e 0x70 0x74 0x80 0x6f 0xf8 0x89 0x91 0x42 0xf8;
  e 0x24 0xee 0xd4 0x9f 0xde 0xc5 0xdd 0xfe 0x09;
  e 0x7f 0x80 0xee 0xd7 0xbe 0x76 0xdd 0x52 0xdd;
  e 0x0f 0x75 0x66 0x06 0x01 0x5e 0xdd 0x93 0x09;
  e 0x3b 0xd4 0x3c 0x6a 0x7e 0x22 0xdd 0x9d 0x90;
  e 0xcd 0x66 0x8c 0x2c 0x57 0x90 0xdd 0x04 0x90;
  e 0x94 0x8c 0x80 0x8d 0x71 0xa7 0xdd 0xd8 0x31;
  e 0x89 0xc4 0x75 0xba 0x4a 0x32 0xdd 0x3d 0xdd;
  e 0xbf 0x3c 0xc4 0xe2 0x73 0x17 0xdd 0x9e 0x31;
  e 0x82 0x6e 0xcb 0x3a 0xdf 0x64 0x98 0x11 0x33;
  e 0x0c 0xcd 0x6e 0x8c 0x24 0x5f 0x98 0xdd 0x87;
  e 0xe7 0x20 0x02 0x01 0x41 0xb2 0x98 0x4c 0x27;
  e 0x88 0x18 0x20 0xdb 0xd0 0x12 0x98 0xf5 0x02].
Definition A_19 : list aff := [
  e 0xfe 0x02 0xcd 0xd2 0x54 0x08 0x98 0x04 0x5e;
  e 0x9e 0xb4 0x18 0x68 0x21 0x26 0x98 0xae 0x17;
  e 0xf4 0x7e 0xb4 0xa1 0xc3 0x74 0x98 0xea 0x57;
  e 0x75 0xcb 0x7e 0xef 0xdc 0x59 0x98 0xad 0xfa;
  e 0x58 0x8a 0x8c 0x15 0x24 0xf1 0xaa 0x72 0x46;
  e 0x43 0x03 0x74 0x27 0x94 0x78 0xaa 0x90 0x22;
  e 0xe8 0x74 0x91 0xc8 0x1c 0xa5 0xaa 0x86 0x62;
  e 0x39 0xce 0x8a 0x02 0xc6 0x1f 0xaa 0x47 0xf2;
  e 0x83 0x8c 0x03 0x4a 0xbc 0x5d 0xaa 0x1e 0x8f;
  e 0x23 0x91 0xe7 0x05 0x85 0xea 0xaa 0xb8 0x77;
  e 0x38 0x63 0xce 0xe6 0x9f 0x18 0xaa 0x21 0x2b;
  e 0x52 0xe7 0x63 0xfb 0xcc 0x36 0xaa 0x0e 0x52;
  e 0x60 0x34 0xc8 0x4f 0x0f 0xff 0x48 0xae 0x03;
  e 0x25 0x92 0x7e 0x3f 0x7b 0x59 0x48 0x24 0xb3;
  e 0x51 0xc8 0xd7 0x8b 0xd0 0x4b 0x48 0xa5 0xa6;
  e 0xd2 0x67 0x92 0x4d 0xf1 0xe4 0x48 0xc1 0x43;
  e 0xee 0xd7 0x52 0xd8 0x91 0x1c 0x48 0xe2 0xf7;
  e 0x7d 0x7e 0x34 0x8f 0x43 0xfd 0x48 0x9d 0xd2;
  e 0xfe 0x52 0xba 0x82 0x2a 0xd1 0x48 0x7a 0x7a;
  e 0xab 0xba 0x67 0x2b 0xad 0x71 0x48 0xa3 0x7f;
  e 0xec 0x18 0xcc 0xdc 0x4e 0xb8 0xe9 0x31 0xa6;
  e 0x4c 0x57 0xd9 0x69 0x5d 0xf7 0xe9 0x37 0x43;
  e 0x03 0x52 0xb9 0x0f 0xc4 0xf2 0xe9 0x27 0xd2;
  e 0xa3 0xbd 0xe5 0xf3 0x3e 0x1d 0xe9 0x81 0x7a;
  e 0x9c 0xe5 0x57 0x6d 0x4d 0xac 0xe9 0xe0 0x7f;
  e 0x89 0xcc 0xbd 0x32 0x88 0x85 0xe9 0x26 0xf7;
  e 0xd5 0xb9 0x18 0x6b 0xfe 0xf0 0xe9 0x1c 0x03;
  e 0xc0 0xd9 0x52 0x94 0xd2 0x90 0xe9 0x93 0xb3;
  e 0x1e 0x72 0x05 0x50 0x1d 0xee 0x5f 0xb5 0x39;
  e 0x5b 0x05 0xaf 0xd1 0xa0 0xc6 0x5f 0x3e 0xcc;
  e 0x4f 0xc2 0x94 0x62 0x79 0x01 0x5f 0x83 0xb0;
  e 0x82 0x94 0x11 0xd8 0x2c 0x08 0x5f 0x90 0x74;
  e 0x98 0x11 0xd5 0x68 0x52 0xd2 0x5f 0xb6 0xf4;
  e 0x64 0xd5 0x15 0xf9 0x22 0x49 0x5f 0xc5 0xdc;
  e 0xf8 0xaf 0xc2 0xb2 0x4c 0x33 0x5f 0x7c 0x91;
  e 0x8c 0x15 0x72 0x47 0xd4 0xd6 0x5f 0xc8 0x88;
  e 0x71 0x66 0x41 0x50 0x1f 0xcc 0xd1 0x4e 0x3f;
  e 0xdb 0x16 0xf0 0x4b 0xa5 0xbc 0xd1 0x45 0xda;
  e 0x01 0x6c 0x69 0x73 0x5d 0xc6 0xd1 0xf5 0x96;
  e 0xab 0xb6 0xa3 0x13 0x36 0x1c 0xd1 0x54 0x3e;
  e 0x82 0x41 0x6c 0xe5 0xed 0x3a 0xd1 0x3b 0x56;
  e 0xf9 0xf0 0xb6 0x44 0x2c 0x8b 0xd1 0x20 0x12;
  e 0x48 0xa3 0x66 0x8f 0xa4 0xd8 0xd1 0xa9 0xd7;
  e 0x33 0x69 0x16 0x84 0xb4 0x12 0xd1 0xc9 0xab;
  e 0x86 0x9b 0xf7 0xfd 0x6e 0x59 0x7d 0xb6 0xca;
  e 0xa1 0x94 0x9b 0xe4 0xa6 0x2b 0x7d 0xad 0x66;
  e 0xef 0xf7 0xa2 0x51 0x22 0x48 0x7d 0x6d 0x0b;
  e 0x50 0x06 0xc3 0x8f 0x70 0xb9 0x7d 0x5e 0x3a;
  e 0xe7 0xc3 0x94 0x40 0x66 0x01 0x7d 0xa0 0x6a;
  e 0x1e 0xda 0x38 0xf8 0x89 0x65 0x7d 0x21 0x6f;
  e 0x25 0xa2 0xda 0xcc 0xf6 0x60 0x7d 0x7e 0xb7;
  e 0x47 0x9d 0xc5 0xab 0x52 0x42 0xb2 0x27 0x90;
  e 0x65 0xc5 0xb7 0x26 0xae 0xa8 0xb2 0x76 0x31;
  e 0x93 0x89 0x9d 0x25 0xe3 0xe4 0xb2 0xa3 0x09;
  e 0xde 0xb7 0x7f 0xe5 0xeb 0x68 0xb2 0x96 0xdd;
  e 0x01 0xf1 0x89 0xcc 0x36 0x2e 0xb2 0xbd 0xdd;
  e 0x98 0x04 0x5e 0xef 0x3d 0xdb 0xb2 0xd3 0x90;
  e 0x08 0x5e 0xf1 0x0d 0xac 0x33 0xb2 0x32 0x31;
  e 0xfe 0x7f 0x04 0xd1 0x53 0x12 0xb2 0x8a 0x09;
  e 0x56 0xf8 0x85 0xc2 0x98 0x66 0x19 0x5f 0xa9;
  e 0x39 0x85 0x29 0xc4 0xf2 0x02 0x19 0x07 0xfd;
  e 0xc8 0xab 0x8d 0x54 0x44 0x35 0x19 0x8b 0xe4;
  e 0xbe 0x8d 0xe4 0x8e 0xa9 0x0a 0x19 0x91 0xc5;
  e 0x31 0x22 0xab 0xd0 0x03 0xa5 0x19 0x6d 0xb9].
Definition A_20 : list aff := [
  e 0xb6 0xad 0xf8 0x04 0x41 0x2a 0x19 0x7c 0x81;
  e 0x9b 0xe4 0xad 0xa0 0x3a 0x7a 0x19 0xcc 0x01;
  e 0xb6 0x5b 0xb4 0x5a 0xe7 0x39 0x56 0xf8 0x92;
  e 0xcf 0x17 0xa8 0xc2 0xc0 0x23 0x56 0xf7 0x8e;
  e 0xd4 0xa8 0xba 0x36 0x2e 0xca 0x56 0x3f 0xa3;
  e 0xfb 0x2d 0x5b 0x05 0x6b 0x19 0x56 0xaf 0x1e;
  e 0x45 0xd9 0x17 0x3e 0x9e 0xbb 0x56 0x74 0x83;
  e 0xf5 0xba 0x48 0x7a 0x28 0x8e 0x56 0xa9 0xcb;
  e 0xc1 0xb4 0xd9 0xdf 0xd5 0x80 0x56 0xc5 0x16;
  e 0x27 0x48 0x2d 0x66 0x01 0x2a 0x56 0xd1 0x8a;
  e 0xe0 0x7b 0x6c 0x40 0x7c 0x3a 0x74 0xa4 0x45;
  e 0x9e 0x6c 0xae 0x7d 0x9a 0x59 0x74 0xc1 0x29;
  e 0x13 0x3e 0x7b 0x64 0x11 0x0b 0x74 0xeb 0x20;
  e 0x98 0xae 0xb3 0xd2 0xba 0xef 0x74 0xc9 0xd5;
  e 0xd9 0x97 0x3e 0x1e 0x3b 0xd6 0x74 0xc5 0x98;
  e 0xa1 0x03 0xd4 0xb9 0x89 0x42 0x74 0xe9 0x08;
  e 0xab 0xd4 0x97 0x71 0x5a 0xe1 0x74 0x38 0x11;
  e 0x26 0xb3 0x03 0x29 0xa5 0x86 0x74 0x27 0x18;
  e 0x29 0x80 0x41 0x1b 0xe6 0xf9 0xee 0xa2 0x7e;
  e 0x5f 0x3e 0x63 0xd8 0x09 0x47 0xee 0x81 0x1a;
  e 0x50 0xf6 0xdc 0xff 0x9a 0x8f 0xee 0x43 0x4f;
  e 0x51 0x69 0x80 0x49 0xc5 0xfe 0xee 0xd7 0xbf;
  e 0xc6 0x63 0xf6 0xa8 0xc0 0xf4 0xee 0xa4 0x2f;
  e 0x5b 0x41 0x3e 0x84 0xcb 0xd6 0xee 0x89 0xc2;
  e 0xcc 0xdc 0x31 0x1c 0x20 0x4b 0xee 0x6d 0x1f;
  e 0x26 0x31 0x69 0xab 0x9b 0x48 0xee 0x19 0x13;
  e 0xfa 0x18 0xba 0x0d 0x4a 0x60 0xcc 0x05 0xbd;
  e 0x82 0xa0 0x3b 0xf4 0xc7 0xd8 0xcc 0x09 0x1c;
  e 0x3a 0x96 0x92 0x51 0x15 0xee 0xcc 0xbe 0x48;
  e 0xe4 0xa7 0xa0 0x30 0x70 0x13 0xcc 0x91 0x9d;
  e 0x65 0xba 0x56 0x3f 0x97 0x0e 0xcc 0x4c 0x59;
  e 0x42 0x56 0xa7 0x1c 0x54 0x2e 0xcc 0xca 0x9c;
  e 0x50 0x92 0x18 0x3c 0x85 0x26 0xcc 0xdc 0x04;
  e 0xd1 0x3b 0x96 0x4b 0xae 0x8f 0xcc 0xb5 0xb5;
  e 0xc8 0x65 0x7b 0xb7 0x98 0x10 0x16 0xb2 0xf9;
  e 0xbd 0x30 0x69 0xd0 0xbc 0x45 0x16 0x84 0x58;
  e 0xe8 0xee 0xdd 0x52 0xd2 0x9b 0x16 0x48 0x34;
  e 0x9d 0xce 0xac 0x56 0xe0 0xbb 0x16 0x0b 0xe0;
  e 0xa2 0x7b 0xce 0x5a 0x6f 0x18 0x16 0x85 0xf1;
  e 0xc1 0x69 0xee 0x19 0x28 0x0a 0x16 0xe2 0x1d;
  e 0xd3 0xdd 0x65 0xf5 0x21 0xbe 0x16 0x76 0xe1;
  e 0xb0 0xac 0x30 0xc3 0x70 0xcf 0x16 0x72 0x78;
  e 0xbe 0x42 0x94 0x9a 0x59 0xb6 0x9b 0xe4 0xa8;
  e 0x4a 0xdb 0xbf 0x45 0x84 0x2f 0x9b 0x12 0xa8;
  e 0x79 0x32 0xdb 0xa0 0x8a 0x5d 0x9b 0x17 0x44;
  e 0xd3 0xfe 0x76 0x7a 0xd8 0x0a 0x9b 0x1c 0xe5;
  e 0x3d 0xbf 0xfe 0x35 0x20 0xd0 0x9b 0x03 0x7c;
  e 0x27 0x93 0x32 0xca 0x9e 0x67 0x9b 0x1e 0xe5;
  e 0x52 0x94 0x93 0x37 0x92 0xfb 0x9b 0xdc 0x7c;
  e 0x16 0x76 0x42 0x56 0xa3 0x19 0x9b 0xa7 0x44;
  e 0x39 0x4f 0x07 0x83 0xb2 0x2a 0x66 0x33 0xa2;
  e 0x19 0x07 0x75 0x54 0x90 0x04 0x66 0x06 0x4a;
  e 0xc1 0xa3 0x4f 0xd3 0x53 0xa0 0x66 0x99 0x4b;
  e 0xc2 0x7b 0x74 0xeb 0xd5 0x78 0x66 0x24 0xe3;
  e 0x1a 0xdc 0x2b 0x09 0x70 0xdf 0x66 0xb8 0xaf;
  e 0x5c 0x74 0xdc 0x3d 0x51 0x11 0x66 0x0b 0xde;
  e 0x02 0x75 0x7b 0xc7 0x49 0x10 0x66 0xd2 0x23;
  e 0x67 0x2b 0xa3 0x7a 0xcc 0x4e 0x66 0x8f 0x67;
  e 0x3d 0xce 0x97 0xd0 0xe5 0xeb 0x31 0xfa 0x52;
  e 0xcf 0xe7 0xa3 0x02 0x82 0xc2 0x31 0x98 0xf2;
  e 0x18 0x3c 0xdc 0xbe 0x48 0x19 0x31 0x1c 0x8f;
  e 0x4e 0xfc 0xce 0x43 0x87 0xe8 0x31 0xd5 0x77;
  e 0x5a 0xa3 0x3c 0xa5 0x0f 0xb7 0x31 0xaf 0x46;
  e 0x11 0x97 0xe7 0x10 0x06 0x83 0x31 0x4c 0x2b].
Definition A_21 : list aff := [
  e 0x05 0xdc 0x30 0xd3 0xbf 0xc8 0x31 0x22 0x22;
  e 0xea 0x30 0xfc 0x78 0x1e 0x15 0x31 0x5b 0x62;
  e 0x32 0x30 0x31 0x22 0xfe 0xd7 0x69 0xab 0x47;
  e 0xd5 0x75 0x79 0x8d 0x7d 0x92 0x69 0x60 0x3b;
  e 0x7c 0x31 0x8c 0x3b 0xc7 0xbf 0x69 0xc8 0x0e;
  e 0x77 0x8c 0xaa 0x72 0xf8 0x6b 0x69 0x5f 0x8b;
  e 0xf2 0x79 0x2e 0x17 0xca 0xf7 0x69 0x67 0xeb;
  e 0xba 0x6c 0x30 0xa6 0x0a 0xe2 0x69 0xd0 0x37;
  e 0x90 0x2e 0x6c 0x53 0x12 0xc9 0x69 0x73 0xcf;
  e 0x34 0xaa 0x75 0x6d 0x6e 0x24 0x69 0xf1 0x9f;
  e 0xd1 0xa9 0xdf 0x73 0xfc 0x44 0x1c 0x9c 0xf5;
  e 0x3c 0x6b 0xbe 0xff 0xae 0x86 0x1c 0xaf 0x80;
  e 0xb9 0xea 0x6b 0x0c 0x02 0x1b 0x1c 0x27 0xc4;
  e 0xd8 0xdf 0x89 0x62 0xe6 0x2e 0x1c 0x3d 0x5d;
  e 0xfe 0xa6 0x7a 0x08 0xda 0x4b 0x1c 0x03 0x54;
  e 0x48 0x7a 0xa9 0x3f 0xbd 0x8b 0x1c 0x5a 0xb1;
  e 0x29 0xbe 0xa6 0xbc 0x45 0x4f 0x1c 0xb1 0x28;
  e 0x13 0x89 0xea 0x75 0x94 0x64 0x1c 0xdd 0x21;
  e 0x6c 0x40 0xa4 0xeb 0x8c 0xe8 0x3d 0x29 0xad;
  e 0x4a 0x46 0x40 0x15 0x6b 0xd3 0x3d 0xbf 0xc9;
  e 0xe6 0x33 0x46 0x16 0xab 0x9b 0x3d 0xd1 0xb4;
  e 0xc1 0xa4 0xb9 0xcf 0x6f 0x31 0x3d 0x7f 0x40;
  e 0xdf 0xcd 0x62 0xa2 0x6a 0x58 0x3d 0x9c 0x25;
  e 0x4e 0xb9 0xcd 0x35 0x3f 0x11 0x3d 0xce 0x15;
  e 0xc4 0x62 0xba 0x5d 0x25 0xca 0x3d 0x9e 0x79;
  e 0x99 0x67 0x0b 0x91 0x5a 0xda 0x3b 0x37 0x57;
  e 0x24 0x02 0x33 0x14 0x81 0xbf 0x3b 0xd4 0x5e;
  e 0xed 0x0b 0x78 0x76 0xd2 0x8d 0x3b 0x71 0x17;
  e 0xfc 0x78 0x5b 0x22 0x16 0xc5 0x3b 0x10 0x02;
  e 0x6b 0x33 0xa0 0x28 0x8f 0xb5 0x3b 0xf4 0x87;
  e 0x53 0xe5 0x67 0x6a 0x7d 0x63 0x3b 0xfa 0xfa;
  e 0x41 0xa0 0xe5 0x21 0xf6 0x1d 0x3b 0x4e 0x33;
  e 0xd5 0x5b 0x02 0x89 0x1b 0xdd 0x3b 0xf9 0x27;
  e 0xc4 0x6f 0xdb 0x78 0x69 0x5d 0x43 0x92 0x4c;
  e 0xcf 0xdb 0xda 0x23 0xe1 0xaa 0x43 0x29 0xb9;
  e 0xeb 0x26 0x28 0xc7 0xd8 0x57 0x43 0xa1 0xc5;
  e 0xf6 0x28 0xff 0x6e 0x7b 0x1a 0x43 0xa4 0x01;
  e 0xbe 0xff 0xaf 0x27 0x82 0x8e 0x43 0x3f 0x81;
  e 0xb1 0xaf 0x73 0xd4 0x17 0x9d 0x43 0x07 0xa9;
  e 0x83 0xda 0x26 0xb3 0x46 0xe8 0x43 0x03 0xe4;
  e 0x9a 0x73 0x6f 0xf1 0xf8 0x02 0x43 0xc6 0xfd;
  e 0xb9 0x87 0x5d 0x1b 0x17 0x65 0xf8 0x9f 0xfe;
  e 0xfa 0x5d 0x24 0xee 0xc7 0x47 0xf8 0xd4 0xea;
  e 0xe7 0x58 0x87 0xb2 0xb3 0x42 0xf8 0xfb 0x7b;
  e 0x71 0xec 0x58 0xcc 0x9c 0x0e 0xf8 0xe9 0x32;
  e 0xe0 0x5a 0xec 0x3c 0xea 0x40 0xf8 0x31 0x42;
  e 0x93 0x24 0x45 0x33 0x53 0xc6 0xf8 0x3b 0x4e;
  e 0x5b 0xad 0x5a 0xfe 0x20 0x4f 0xf8 0xaf 0xba;
  e 0xfd 0x45 0xad 0x82 0x66 0x5f 0xf8 0x04 0x9e;
  e 0x47 0xdd 0x2f 0x88 0xb4 0xde 0x65 0xc5 0xd8;
  e 0x7d 0xaa 0x41 0xe4 0x2a 0xcc 0x65 0x36 0xac;
  e 0xf8 0xd4 0xdd 0xfe 0x10 0xb2 0x65 0xf5 0xbc;
  e 0xfa 0x41 0xd4 0xa8 0x55 0x42 0x65 0xba 0xc1;
  e 0x1b 0x2f 0xfc 0x3f 0x11 0x49 0x65 0xb0 0x35;
  e 0x9e 0x37 0x63 0x26 0x4e 0x51 0x65 0x15 0x50;
  e 0xf9 0xfc 0x37 0x48 0x6d 0xff 0x65 0x61 0x60;
  e 0x44 0x63 0xaa 0x0e 0xe9 0x60 0x65 0x1d 0x0c;
  e 0xc3 0xef 0x8d 0x56 0x71 0x39 0x9a 0x40 0x62;
  e 0xb1 0x12 0xec 0x09 0xb9 0xc4 0x9a 0x73 0x8f;
  e 0x79 0x8d 0x60 0xf1 0xac 0xc1 0x9a 0xa6 0x77;
  e 0x35 0x0f 0x12 0xcf 0x8a 0x43 0x9a 0xf2 0x46;
  e 0x67 0x60 0x22 0x11 0x49 0xb6 0x9a 0x4d 0x52;
  e 0xb7 0xec 0xef 0x66 0x7c 0xa0 0x9a 0x63 0x22;
  e 0xfb 0x22 0x4b 0x8e 0xc0 0x6e 0x9a 0x7b 0x2b].
Definition A_22 : list aff := [
  e 0x15 0x4b 0x0f 0x02 0x1b 0x9d 0x9a 0xa8 0xf2;
  e 0x7c 0xcc 0xb1 0xbf 0x84 0x70 0xa4 0x13 0x59;
  e 0x28 0xa8 0x6e 0x2c 0x4d 0x14 0xa4 0xa1 0x9d;
  e 0x94 0x40 0xa0 0x5e 0x73 0xfc 0xa4 0x51 0x04;
  e 0x7b 0x67 0x40 0x77 0x31 0x7f 0xa4 0xeb 0x48;
  e 0x63 0xb1 0xa8 0x87 0xb3 0xa9 0xa4 0x81 0x9c;
  e 0xad 0xa0 0xcc 0x91 0x36 0xb8 0xa4 0xc4 0xbd;
  e 0xb5 0x6e 0x98 0xdd 0x10 0x76 0xa4 0xb6 0x1c;
  e 0xc0 0x98 0x67 0xd5 0x1e 0x24 0xa4 0x5f 0xb5;
  e 0x79 0xbc 0x17 0x58 0x65 0xfb 0x67 0x60 0x15;
  e 0x3e 0x98 0x46 0x4e 0x30 0xdf 0x67 0x64 0xb4;
  e 0xea 0xba 0xbc 0x15 0x6d 0x9a 0x67 0xe3 0x40;
  e 0x5d 0xe5 0xcb 0x80 0xd6 0xa2 0x67 0x68 0x79;
  e 0xca 0xcb 0x98 0x11 0x7f 0xeb 0x67 0xd5 0xd9;
  e 0x9b 0x17 0xe5 0x7a 0xda 0x37 0x67 0x6a 0x25;
  e 0x1a 0x86 0xba 0xb6 0xe4 0xc1 0x67 0x2b 0xad;
  e 0xbb 0x46 0x86 0x39 0xaf 0x66 0x67 0x7c 0xc9;
  e 0x2c 0x62 0x96 0x6f 0xfa 0x87 0x2d 0x93 0x7f;
  e 0xc9 0x48 0x6e 0x72 0xe0 0xad 0x2d 0x71 0x03;
  e 0x24 0x57 0x62 0x41 0xe6 0x9f 0x2d 0xb3 0x7a;
  e 0x06 0x86 0x67 0x7c 0x3a 0x63 0x2d 0x8f 0xb3;
  e 0xec 0x67 0x48 0xa3 0x19 0xaf 0x2d 0x66 0xd2;
  e 0x14 0x96 0x86 0x70 0xc4 0x5e 0x2d 0x58 0x43;
  e 0xe3 0x49 0x57 0xa9 0x0d 0xac 0x2d 0x88 0xf7;
  e 0xdc 0x6e 0x49 0x77 0x16 0xa6 0x2d 0x45 0xa6;
  e 0x51 0x6f 0xc2 0x4b 0xc0 0x8c 0xdb 0x87 0xdb;
  e 0x08 0x2a 0x32 0xbc 0x2f 0x12 0xdb 0xa0 0x2a;
  e 0xef 0xb8 0x11 0x1e 0x24 0x5b 0xdb 0x6b 0x72;
  e 0x33 0xc1 0xb8 0xee 0xc8 0xf9 0xdb 0x16 0xef;
  e 0x30 0x11 0x6f 0xd9 0xaa 0x29 0xdb 0x78 0x6e;
  e 0x0b 0xc2 0x06 0x68 0x96 0xfa 0xdb 0xf6 0x93;
  e 0x0c 0x06 0x2a 0xc6 0x99 0xe5 0xdb 0xed 0x97;
  e 0xb2 0x32 0xc1 0xab 0xa6 0xd1 0xdb 0xe2 0x73;
  e 0x25 0x23 0xf3 0x59 0x66 0x3a 0x9e 0xdf 0xed;
  e 0xe5 0xf3 0x81 0x26 0x46 0x74 0x9e 0x94 0x55;
  e 0xf9 0x5d 0x99 0x68 0x7a 0x44 0x9e 0x37 0x7d;
  e 0xf4 0x0f 0xe6 0x49 0x9f 0x88 0x9e 0xb4 0x5c;
  e 0x73 0x99 0x23 0x0b 0xd5 0x1e 0x9e 0x3b 0x64;
  e 0x62 0xe2 0x5d 0x7d 0x92 0x65 0x9e 0x9c 0x6d;
  e 0x3c 0xe6 0xe2 0x51 0x35 0xff 0x9e 0x9d 0xa0;
  e 0xe0 0x81 0x0f 0xe7 0xb7 0x98 0x9e 0x6c 0x30;
  e 0xb1 0xd8 0x87 0xc3 0xd9 0xd4 0x81 0x13 0xfb;
  e 0xc7 0x87 0xe4 0x16 0xa6 0x0a 0x81 0x03 0xd6;
  e 0xbd 0x60 0xf3 0xbb 0x98 0x6c 0x81 0x26 0x6b;
  e 0x4a 0xf3 0x50 0x2f 0x6a 0x7e 0x81 0x7b 0xe7;
  e 0x09 0xe4 0x4c 0x3d 0xdb 0xe8 0x81 0x5b 0xbe;
  e 0xb3 0x4c 0x60 0xea 0xdc 0xc1 0x81 0x7c 0xff;
  e 0x3e 0xb5 0xd8 0xdf 0x91 0x38 0x81 0x89 0xf6;
  e 0x05 0x50 0xb5 0xc8 0x1b 0x5c 0x81 0x62 0x63;
  e 0x58 0x93 0x72 0x9d 0xde 0x18 0x1f 0xb2 0x4b;
  e 0x02 0x53 0x3a 0x8e 0xa4 0xc7 0x1f 0x14 0x23;
  e 0x7a 0x7d 0x6f 0x36 0x0e 0xf6 0x1f 0x60 0xaf;
  e 0x3e 0xda 0x7d 0x7e 0xdc 0x4e 0x1f 0x34 0xde;
  e 0x96 0x6f 0x93 0xb3 0xba 0xfb 0x1f 0xa3 0x67;
  e 0xaa 0x72 0x5f 0xc8 0xdd 0xe6 0x1f 0x17 0xa2;
  e 0xf1 0x5f 0x53 0x81 0x84 0xd4 0x1f 0xd6 0x4a;
  e 0xd3 0x3a 0xda 0xbe 0x4b 0xb1 0x1f 0x8f 0xe3;
  e 0xa7 0x79 0xce 0xa9 0xbd 0x4c 0x41 0x4a 0xf4;
  e 0x06 0xce 0xaa 0x21 0x42 0xba 0x41 0xe4 0xdc;
  e 0xf3 0x08 0x79 0x32 0xef 0x7c 0x41 0xdb 0x74;
  e 0x5e 0xaa 0xfd 0x17 0x9d 0x9f 0x41 0x18 0x88;
  e 0x6b 0x66 0x08 0xd7 0xd0 0x53 0x41 0xa0 0xb0;
  e 0x92 0x80 0x4f 0x1d 0xb1 0xb5 0x41 0xc7 0xcc;
  e 0x72 0x4f 0x66 0x99 0x3a 0x3b 0x41 0x50 0x91].
Definition A_23 : list aff := [
  e 0x87 0xfd 0x80 0xbf 0xd6 0x89 0x41 0x1b 0x39;
  e 0xc1 0xab 0xe2 0xa0 0x73 0xcf 0x45 0xd9 0x62;
  e 0x16 0xe2 0x4b 0xb7 0xae 0xc3 0x45 0xc9 0x77;
  e 0x6e 0xe4 0x77 0xbb 0x0b 0x80 0x45 0x71 0x8f;
  e 0xd0 0x90 0x60 0x3e 0x1d 0xb1 0x45 0x14 0x2b;
  e 0xf1 0x77 0xab 0xd4 0x55 0x56 0x45 0x97 0x22;
  e 0x37 0x24 0xe4 0x39 0xa3 0x05 0x45 0x6b 0x46;
  e 0xa5 0x60 0x24 0x02 0x5f 0x04 0x45 0x33 0xf2;
  e 0x0a 0x4b 0x90 0x38 0x62 0x2f 0x45 0xff 0x52;
  e 0xe0 0xd5 0xa2 0x50 0x6a 0xe7 0x71 0xec 0x54;
  e 0x2b 0xbb 0xd5 0xb9 0xaa 0xf8 0x71 0x18 0x28;
  e 0x0b 0xa2 0x76 0x08 0x57 0xe1 0x71 0x37 0xb1;
  e 0xd2 0xe3 0xc1 0x01 0x7c 0xd1 0x71 0x99 0x21;
  e 0xe4 0x72 0xbb 0x0e 0x85 0x40 0x71 0x6b 0x80;
  e 0xd6 0x76 0x9b 0x1c 0xe2 0x44 0x71 0x2c 0xf5;
  e 0x68 0x9b 0xe3 0xcc 0x8e 0xd8 0x71 0x0a 0x5d;
  e 0x48 0xc1 0x72 0x4f 0x02 0x82 0x71 0x66 0xc4;
  e 0x30 0xcb 0x52 0x29 0xf0 0x1c 0xb9 0x0f 0x7f;
  e 0x01 0xa4 0x0a 0x2e 0xe2 0x73 0xb9 0xfc 0xf7;
  e 0xe7 0x2d 0xa0 0x0c 0x8a 0xfa 0xb9 0x87 0x03;
  e 0xe1 0x96 0x2d 0x93 0xf1 0xf8 0xb9 0x1f 0xd2;
  e 0x8f 0x0a 0xcb 0x1b 0x5c 0x64 0xb9 0x54 0x7a;
  e 0x13 0x52 0x95 0x0e 0x05 0x3c 0xb9 0xea 0x43;
  e 0xd6 0x95 0x96 0x65 0x21 0x42 0xb9 0xa3 0xb3;
  e 0x7d 0xa0 0xa4 0x51 0x11 0xce 0xb9 0xcf 0xa6;
  e 0x3d 0x9e 0x8d 0x15 0x48 0x35 0x58 0xff 0x6c;
  e 0xca 0x8d 0x50 0xf6 0x1d 0x7e 0x58 0xdc 0xfc;
  e 0x09 0x64 0xe2 0xbd 0x8b 0xcf 0x58 0x0b 0xb8;
  e 0x37 0xec 0x01 0xf1 0x41 0x1f 0x58 0x89 0x10;
  e 0xc4 0xe2 0x9e 0x9d 0x7b 0x11 0x58 0x2c 0x65;
  e 0x39 0x70 0x64 0x31 0x7f 0x83 0x58 0x8a 0x89;
  e 0x96 0x01 0x70 0x43 0xd9 0xaa 0x58 0x93 0x19;
  e 0xa2 0x50 0xec 0x18 0x42 0xfb 0x58 0xcc 0xcd;
  e 0x14 0xd6 0x36 0x5e 0x2e 0x32 0x0f 0xf9 0x05;
  e 0xf0 0x4b 0x45 0xc9 0x2b 0xaf 0x0f 0x8f 0xd1;
  e 0x89 0x29 0x19 0x07 0x82 0xcd 0x0f 0x75 0xf0;
  e 0x6d 0x50 0x81 0x7b 0x88 0xb4 0x0f 0xe7 0x51;
  e 0xcb 0x36 0x29 0x94 0x78 0xdd 0x0f 0x54 0x3c;
  e 0x20 0x45 0x50 0x06 0x96 0xae 0x0f 0xc3 0xa5;
  e 0x53 0x81 0xd6 0x17 0xa2 0x6a 0x0f 0x7e 0x8d;
  e 0xb8 0x19 0x4b 0x61 0x43 0xf2 0x0f 0x02 0x61;
  e 0x07 0x12 0xeb 0xc0 0x8c 0x76 0x21 0xa1 0x0d;
  e 0x89 0xde 0x10 0xf0 0xd2 0xba 0x21 0x25 0x84;
  e 0xda 0x58 0xf8 0xe9 0x05 0x1d 0x21 0x7e 0x41;
  e 0x9f 0x10 0x12 0x46 0xc3 0x55 0x21 0x52 0x95;
  e 0xd7 0xeb 0x50 0x28 0xb1 0xae 0x21 0x43 0x2d;
  e 0xed 0x50 0x58 0xdc 0x51 0x34 0x21 0xee 0x68;
  e 0x92 0xe6 0xde 0xe3 0x56 0xa3 0x21 0x2a 0x8c;
  e 0x63 0xf8 0xe6 0xa9 0x2e 0x9c 0x21 0x0e 0x94;
  e 0xb4 0x5a 0xf8 0xaf 0x02 0x07 0x85 0xc2 0xc4;
  e 0x32 0xb0 0xde 0xd7 0xf5 0xed 0x85 0x96 0x5d;
  e 0xa3 0x60 0x81 0x7c 0x30 0xb8 0x85 0x51 0x54;
  e 0x7b 0xde 0x5a 0x7f 0x08 0x06 0x85 0xb2 0x21;
  e 0xc5 0xf8 0x36 0xf0 0x1c 0x20 0x85 0x4f 0x80;
  e 0x6f 0x36 0x60 0x34 0x15 0x6b 0x85 0xc8 0x28;
  e 0x1d 0x9e 0xb0 0xae 0xa1 0x46 0x85 0x74 0xf5;
  e 0xe9 0x81 0x9e 0x94 0x67 0xdc 0x85 0xc1 0xb1;
  e 0xad 0xe7 0xaa 0xb8 0x29 0x6b 0xa3 0xfe 0xd1;
  e 0x6f 0x65 0xb3 0x4c 0x0d 0xe9 0xa3 0x60 0x51;
  e 0xe3 0x2b 0x80 0xf3 0x5f 0xa7 0xa3 0x01 0xf0;
  e 0xba 0xb6 0x2b 0x7c 0xa0 0x99 0xa3 0x7a 0x3c;
  e 0x95 0xaa 0x65 0x1d 0x7e 0x85 0xa3 0xea 0xa5;
  e 0xa6 0x80 0xe7 0x20 0xb7 0xaf 0xa3 0x02 0x61;
  e 0x89 0xb3 0x25 0xcd 0xca 0x9c 0xa3 0xbd 0x8d].
Definition A_24 : list aff := [
  e 0x21 0x25 0xb6 0x28 0xd8 0xa9 0xa3 0x13 0x05;
  e 0x4e 0xdb 0xd5 0xc7 0xd6 0xc8 0x15 0xf9 0x2b;
  e 0x5d 0x7d 0x9c 0x9d 0x3f 0x6e 0x15 0x59 0x22;
  e 0x78 0xf7 0x7d 0xb6 0x2d 0xf1 0x15 0xac 0x8f;
  e 0x31 0xd5 0x93 0x02 0x41 0xd3 0x15 0x3b 0xf2;
  e 0xfb 0x26 0xb8 0x19 0x1c 0x35 0x15 0x4b 0x77;
  e 0x7e 0xb8 0xdb 0x16 0xd7 0xbe 0x15 0xf0 0x52;
  e 0x37 0x9c 0x26 0xb1 0xae 0x9a 0x15 0x61 0x62;
  e 0xe8 0x93 0xf7 0x45 0xe0 0x80 0x15 0xf8 0x46;
  e 0xd2 0x91 0x35 0xbc 0x6d 0x4d 0x08 0x95 0x60;
  e 0x0e 0x07 0x66 0x33 0x7c 0xdb 0x08 0xd7 0xc1;
  e 0x5f 0xb6 0x91 0x50 0x38 0x62 0x08 0xb0 0x35;
  e 0x0c 0x66 0xdd 0x93 0xe6 0xb2 0x08 0x2a 0xbc;
  e 0x98 0xdd 0xb6 0xa1 0x2d 0x01 0x08 0x5e 0xd8;
  e 0x44 0x97 0x31 0xfa 0x34 0x4b 0x08 0xc0 0x0c;
  e 0xd8 0x35 0x97 0x0d 0x23 0xe1 0x08 0xa5 0x50;
  e 0x8b 0x31 0x07 0x12 0xf5 0xe5 0x08 0xeb 0xac;
  e 0x7e 0x6d 0x8f 0x1a 0xa4 0x11 0x9d 0x24 0x67;
  e 0x9a 0xf2 0xc6 0x56 0x99 0x8e 0x9d 0xcd 0xa2;
  e 0x02 0x89 0xf9 0x10 0xd7 0xf5 0x9d 0x21 0x23;
  e 0xa2 0x51 0x6d 0xb6 0x4d 0xb0 0x9d 0xce 0xaf;
  e 0x43 0xc6 0x89 0xb3 0x42 0x27 0x9d 0x25 0x4a;
  e 0x35 0x8f 0xf2 0xc2 0x75 0x6e 0x9d 0xf4 0x4b;
  e 0xd4 0xf9 0x6a 0xbb 0xe7 0x18 0x9d 0xfe 0xe3;
  e 0xe6 0x6a 0x51 0xbd 0x77 0x16 0x9d 0xb4 0xde;
  e 0x37 0x53 0xf4 0x7e 0x7b 0xb0 0x38 0xb4 0x34;
  e 0x5a 0x4d 0x53 0xb7 0x12 0x96 0x38 0xa1 0x1d;
  e 0x04 0xf4 0xbf 0xe6 0xf9 0x2f 0x38 0x9e 0xe1;
  e 0xdf 0x71 0xda 0x58 0xfa 0xaa 0x38 0xf8 0x78;
  e 0x81 0x13 0xd5 0xea 0x29 0xc8 0x38 0x1c 0xf1;
  e 0xd4 0xd5 0x71 0x18 0xa3 0x36 0x38 0xe9 0xe0;
  e 0xb1 0xbf 0x13 0xc4 0xcd 0x5c 0x38 0xdd 0xf9;
  e 0x52 0xda 0x4d 0x79 0x2d 0x39 0x38 0x63 0x58;
  e 0x34 0xd3 0xd6 0x76 0x52 0xf0 0x22 0x9b 0x93;
  e 0xbf 0xe6 0x9e 0xb4 0xbb 0xc5 0x22 0x18 0x2a;
  e 0xdd 0x9e 0x58 0x2c 0xce 0x9f 0x22 0x88 0x73;
  e 0xdc 0x29 0xd3 0xa6 0xd1 0x28 0x22 0x1c 0xdb;
  e 0x6b 0xd6 0xe6 0x07 0xb2 0xd7 0x22 0x68 0x97;
  e 0x17 0x58 0x60 0xe3 0x6e 0x7b 0x22 0x11 0xef;
  e 0x9c 0x4e 0x29 0x20 0xa5 0x6d 0x22 0xb1 0x6e;
  e 0x6a 0x60 0x4e 0xae 0x8f 0x61 0x22 0xfd 0x72;
  e 0x68 0x55 0xea 0x7d 0xdc 0x48 0xd2 0xe3 0x68;
  e 0x64 0xc7 0xc5 0x44 0x5a 0x08 0xd2 0x57 0x95;
  e 0x86 0x5c 0x7f 0x01 0x83 0x93 0xd2 0xe6 0x8c;
  e 0x5f 0xc5 0xbe 0xd1 0x28 0xd8 0xd2 0x91 0x0d;
  e 0x75 0x7f 0xc7 0x4d 0x14 0x62 0xd2 0x06 0x84;
  e 0x49 0xbe 0x55 0xe4 0x56 0x71 0xd2 0x19 0x2d;
  e 0x42 0xf2 0x5c 0x2e 0x32 0xef 0xd2 0x69 0x94;
  e 0xab 0xea 0xf2 0xbc 0x5d 0x25 0xd2 0x67 0x41;
  e 0xc7 0xa7 0x44 0x38 0x6a 0xb0 0x57 0x06 0xb4;
  e 0x1a 0x49 0xa7 0x79 0x01 0x09 0x57 0xce 0xd9;
  e 0xf6 0xa8 0xa4 0x81 0x30 0xe8 0x57 0xab 0x25;
  e 0xd0 0x34 0xa8 0xc3 0x55 0x23 0x57 0xd5 0x15;
  e 0x43 0xa4 0x49 0xf1 0x9f 0xb3 0x57 0xa9 0x79;
  e 0x5a 0xe5 0x34 0xaa 0x29 0xa5 0x57 0x75 0x40;
  e 0x54 0x20 0xe5 0x4a 0xf7 0x37 0x57 0x6d 0xad;
  e 0xb6 0x44 0x20 0x45 0x4f 0x04 0x57 0x50 0xc9;
  e 0x12 0x3e 0xfc 0x7d 0x58 0xfa 0x68 0x1f 0xa0;
  e 0xb2 0x8a 0x3e 0xcc 0x1d 0x26 0x68 0x34 0x5c;
  e 0xd6 0x16 0x07 0x42 0x27 0xd2 0x68 0x9b 0xed;
  e 0xe5 0xfc 0x80 0xe1 0x95 0x50 0x68 0x6a 0x6d;
  e 0x49 0x07 0x6c 0xa1 0x46 0xab 0x68 0x55 0x55;
  e 0xfe 0x6c 0x8a 0x4b 0x43 0xa8 0x68 0x1a 0x30;
  e 0x1e 0xdd 0x16 0x48 0xa6 0x71 0x68 0xa7 0x64].
Definition A_25 : list aff := [
  e 0x3a 0x80 0xdd 0xd8 0x54 0x44 0x68 0x5a 0x7d;
  e 0x4a 0x92 0x48 0xc1 0xa6 0x45 0x6e 0x72 0x92;
  e 0x15 0x61 0xa8 0xc7 0x76 0xb6 0x6e 0x2c 0x83;
  e 0x9d 0xcd 0xe5 0xbb 0xed 0x1a 0x6e 0x94 0xa3;
  e 0x23 0xbc 0x92 0x80 0xf8 0x05 0x6e 0x4f 0x1e;
  e 0x9a 0xa8 0xcd 0x66 0x64 0x11 0x6e 0x8c 0x8e;
  e 0x37 0x48 0x61 0xb0 0xce 0xf1 0x6e 0xe4 0x16;
  e 0x8e 0xe5 0xe9 0x81 0x3c 0x5c 0x6e 0x9e 0xcb;
  e 0xc2 0xe9 0xbc 0x04 0x53 0x3e 0x6e 0x1d 0x8a;
  e 0xbc 0xac 0x80 0xc6 0x3b 0x50 0x4f 0x1d 0xfe;
  e 0xfe 0x35 0x03 0x12 0xc3 0x86 0x4f 0x9a 0x42;
  e 0x4b 0x37 0xac 0xf4 0x81 0x84 0x4f 0x38 0x7b;
  e 0xe0 0xa3 0x31 0x98 0x7f 0x5f 0x4f 0xa7 0x4e;
  e 0xf8 0x31 0xf0 0x1b 0x27 0x82 0x4f 0xc2 0x9e;
  e 0x40 0xf0 0x35 0x8f 0x61 0x0c 0x4f 0xf2 0xba;
  e 0x1c 0x03 0x37 0x62 0x6a 0xff 0x4f 0xb4 0x32;
  e 0x4d 0x80 0xa3 0x01 0x2a 0x33 0x4f 0xd3 0xea;
  e 0x43 0x3f 0xf3 0x78 0x5f 0xc7 0x1a 0x49 0x63;
  e 0xbb 0x12 0x21 0x52 0x42 0xea 0x1a 0x86 0xbe;
  e 0xbe 0xb5 0x3f 0xb6 0x2c 0x57 0x1a 0x14 0xe7;
  e 0x6e 0x9e 0x85 0xc1 0x40 0x66 0x1a 0x3a 0xfb;
  e 0x5c 0x85 0x12 0x79 0xc9 0x67 0x1a 0xdc 0xd6;
  e 0x8e 0xf3 0x9e 0xdf 0xfc 0x11 0x1a 0x7f 0xf6;
  e 0x96 0x4b 0xb5 0x09 0x47 0xb3 0x1a 0x0d 0x6b;
  e 0x6c 0x21 0x4b 0xe8 0x03 0xc3 0x1a 0x55 0xff;
  e 0x2c 0x4b 0x23 0xac 0xe0 0x95 0x90 0x4f 0x72;
  e 0xa7 0x5a 0x4b 0x53 0xb1 0x14 0x90 0x38 0xef;
  e 0xda 0x23 0x29 0x92 0x15 0x6d 0x90 0x6e 0x6e;
  e 0xf2 0x64 0x10 0x41 0xb2 0xba 0x90 0x2e 0x97;
  e 0xdd 0xd8 0x5a 0x6a 0xe7 0x06 0x90 0xa1 0x73;
  e 0x03 0x29 0x27 0xc9 0x25 0xf7 0x90 0x1e 0xdb;
  e 0xe9 0x27 0x64 0x32 0x3d 0x69 0x90 0x9b 0x93;
  e 0x94 0x10 0xd8 0x2d 0x09 0x5e 0x90 0x83 0x2a;
  e 0x17 0xff 0x11 0x97 0x0b 0xc5 0x9f 0xe7 0xab;
  e 0x89 0xa2 0xff 0x85 0xb7 0x07 0x9f 0x10 0x96;
  e 0x22 0x11 0x4d 0xa6 0x45 0xb4 0x9f 0xcf 0xda;
  e 0x2d 0x93 0x1f 0xa3 0xcc 0xa9 0x9f 0x2e 0xd7;
  e 0x41 0x1b 0xa2 0xd7 0x68 0x21 0x9f 0xa8 0x56;
  e 0x7b 0x4d 0x09 0x46 0x30 0x77 0x9f 0x5b 0x12;
  e 0x2c 0x09 0x93 0x4c 0x4a 0xac 0x9f 0x81 0x3e;
  e 0x87 0x1f 0x1b 0x55 0x27 0xba 0x9f 0xfb 0x3f;
  e 0x9c 0x9d 0x59 0xac 0xc1 0x77 0x2c 0x16 0x11;
  e 0xa7 0x1c 0xca 0x4c 0xe5 0xda 0x2c 0x4b 0xd5;
  e 0xe2 0x51 0x9d 0xb4 0xde 0x97 0x2c 0x0b 0x08;
  e 0x91 0xca 0x51 0x6f 0x31 0x20 0x2c 0xc2 0x18;
  e 0x61 0x59 0xc7 0x87 0x47 0x9f 0x2c 0xe4 0x98;
  e 0x24 0xd2 0x7a 0x95 0x50 0x14 0x2c 0x62 0x45;
  e 0x7b 0xc7 0xd2 0x06 0x79 0x2d 0x2c 0x09 0x20;
  e 0x76 0x7a 0x1c 0x03 0xa5 0x90 0x2c 0x37 0x29;
  e 0xd7 0x8b 0xa5 0xae 0x86 0xc9 0x53 0x2b 0x1f;
  e 0x7c 0x9b 0x8b 0x70 0xcf 0x8a 0x53 0x5d 0x4f;
  e 0xe2 0xa5 0x4d 0x6a 0xb0 0xb4 0x53 0xb7 0x13;
  e 0xf3 0x2a 0xdb 0xed 0xeb 0x3b 0x53 0x7a 0x1a;
  e 0x6d 0x05 0x5f 0xb5 0xc7 0x14 0x53 0x81 0x7e;
  e 0x95 0x5f 0x2a 0x63 0xcc 0x1d 0x53 0xee 0xc2;
  e 0x03 0x4d 0x05 0xcb 0x3c 0x0f 0x53 0x62 0xbf;
  e 0x41 0xdb 0x9b 0x17 0x25 0x99 0x53 0xe5 0x2f;
  e 0x4d 0xb1 0xcb 0x88 0xbb 0xe7 0x62 0xb7 0xbd;
  e 0x1b 0x78 0xa7 0xb2 0x2a 0x2e 0x62 0x4a 0x1c;
  e 0x50 0xcb 0xc8 0x65 0x22 0xff 0x62 0x7b 0x59;
  e 0x84 0xc8 0xcd 0x73 0xca 0x9e 0x62 0xa2 0x9c;
  e 0x64 0xa7 0x57 0xce 0x87 0x93 0x62 0x41 0xb5;
  e 0x08 0x95 0xb1 0x12 0xae 0xa1 0x62 0xec 0x04;
  e 0xd2 0x57 0x95 0x7d 0x39 0x01 0x62 0x09 0x48].
Definition A_26 : list aff := [
  e 0x3c 0xcd 0x78 0xef 0x69 0xf9 0x62 0xe2 0x9d;
  e 0xca 0x4c 0x4b 0x37 0x6d 0x6e 0x23 0xac 0xf1;
  e 0xe8 0x70 0xde 0x80 0xc5 0x52 0x23 0x91 0x1d;
  e 0x57 0xab 0x70 0x38 0xb9 0xaa 0x23 0x42 0x58;
  e 0xc2 0x4b 0x87 0x78 0x93 0x4a 0x23 0xbc 0xe0;
  e 0xd4 0x99 0x3f 0x5c 0x7b 0xbb 0x23 0xed 0xe1;
  e 0x56 0x3f 0x4c 0x05 0x33 0x3e 0x23 0xf4 0xf9;
  e 0xc3 0xde 0x99 0x67 0x3a 0xdf 0x23 0x0b 0x34;
  e 0xf6 0x87 0xab 0xea 0xf0 0xa5 0x23 0xf2 0x78;
  e 0xa8 0xc2 0xf7 0x74 0x67 0x59 0xf4 0x66 0x90;
  e 0x8f 0xe3 0xc2 0x64 0x7f 0x8c 0xf4 0x24 0x09;
  e 0x3f 0xf7 0x05 0x88 0x85 0x98 0xf4 0xed 0x31;
  e 0x50 0x28 0x43 0xa1 0x87 0x47 0xf4 0xa9 0x31;
  e 0xe0 0x53 0x1f 0xd6 0x89 0x3c 0xf4 0x0f 0x09;
  e 0x33 0x1f 0x28 0x30 0x0a 0x84 0xf4 0xd4 0x90;
  e 0x75 0x05 0x53 0x62 0x2f 0x9e 0xf4 0x7e 0xdd;
  e 0xee 0x43 0xe3 0x49 0xb6 0xd8 0xf4 0x57 0xdd;
  e 0x5e 0x2f 0x25 0x92 0xfb 0x9c 0xfc 0x7e 0x85;
  e 0xed 0x66 0x30 0x34 0xe8 0xd5 0xfc 0x78 0x24;
  e 0xa4 0xc4 0x2e 0x2c 0xbd 0x77 0xfc 0xcf 0x70;
  e 0xf7 0x74 0x66 0x24 0x5f 0x3b 0xfc 0xd6 0xd0;
  e 0xe2 0x25 0x3e 0xda 0x50 0x6a 0xfc 0x7d 0x14;
  e 0x17 0x3e 0x74 0xc5 0x52 0x8d 0xfc 0x7a 0xa4;
  e 0xb8 0x2e 0x2f 0x22 0xff 0x61 0xfc 0x3f 0x49;
  e 0xad 0x30 0xc4 0x6f 0x0c 0x7f 0xfc 0xdb 0xf8;
  e 0x31 0xfa 0xc0 0xa5 0x75 0x78 0xe8 0x93 0x89;
  e 0x43 0xa1 0xa9 0xd4 0x13 0x23 0xe8 0x74 0x65;
  e 0x57 0xa9 0x88 0x45 0xb4 0xc3 0xe8 0x70 0x6c;
  e 0x3d 0x7f 0xfa 0x5d 0x92 0x15 0xe8 0x24 0x19;
  e 0xeb 0xc0 0xa1 0x52 0xec 0xaa 0xe8 0xe9 0xb8;
  e 0xb3 0x88 0x7c 0x9b 0xd1 0x0a 0xe8 0x8b 0xfc;
  e 0xc1 0x51 0x7f 0x80 0x5f 0xd3 0xe8 0xee 0x10;
  e 0x81 0x7c 0x51 0xc8 0x22 0x16 0xe8 0xd7 0xcd;
  e 0x22 0x68 0xb3 0xe3 0xe4 0xa6 0xf0 0x71 0xcf;
  e 0xd7 0xb3 0x74 0xc9 0x67 0x8d 0xf0 0xfb 0x37;
  e 0x6b 0x16 0x68 0xa7 0x7a 0x28 0xf0 0x0a 0xeb;
  e 0xb8 0xee 0x16 0xe2 0x8b 0x20 0xf0 0x4b 0x3b;
  e 0xe9 0x31 0xee 0x6d 0xb1 0x0f 0xf0 0xb7 0x9f;
  e 0x76 0x74 0xaa 0x90 0x93 0xba 0xf0 0xef 0x47;
  e 0xec 0x3c 0x31 0xaf 0x0c 0xf2 0xf0 0x1b 0x8b;
  e 0x55 0xaa 0x3c 0xcd 0x5c 0x94 0xf0 0x78 0x0e;
  e 0xe9 0x37 0xfd 0x6b 0x02 0xf3 0xac 0x04 0xc4;
  e 0x2d 0xb3 0x2e 0x7c 0x3d 0x77 0xac 0xe8 0xb1;
  e 0x4c 0x75 0x37 0x53 0x50 0x1d 0xac 0xf4 0x21;
  e 0x9f 0x2e 0xf6 0x85 0x26 0x46 0xac 0xef 0xf5;
  e 0xa9 0xf6 0x75 0xcb 0x5c 0x32 0xac 0x7e 0x5d;
  e 0x6d 0xb6 0xce 0xb4 0xcf 0x72 0xac 0x56 0x28;
  e 0xf7 0xfd 0xb6 0xad 0x71 0x95 0xac 0xf8 0x80;
  e 0x24 0xce 0xb3 0xbf 0xab 0xa6 0xac 0x8b 0x54;
  e 0xf1 0xba 0xcc 0x05 0x1d 0x81 0xbd 0x32 0x79;
  e 0x11 0x2d 0x47 0xe8 0xbf 0x16 0xbd 0xa6 0x15;
  e 0x36 0x44 0x61 0x31 0x0c 0xc2 0xbd 0x08 0xc9;
  e 0xb0 0x47 0xba 0x6c 0xef 0xc1 0xbd 0x30 0x25;
  e 0xb3 0xcc 0xcd 0x23 0x75 0x4a 0xbd 0x60 0xd9;
  e 0x2a 0xcd 0x44 0xd0 0xda 0xf6 0xbd 0xc0 0xb4;
  e 0x35 0x49 0x2d 0x45 0x2b 0xcf 0xbd 0xde 0x40;
  e 0xca 0x61 0x49 0xbb 0xc5 0x5a 0xbd 0x6f 0xad;
  e 0xe5 0x7a 0x6a 0x60 0x7e 0x26 0xfa 0x4e 0x37;
  e 0x50 0x39 0x5e 0x47 0xe6 0x65 0xfa 0x18 0x0e;
  e 0x7d 0x5e 0xcf 0xfd 0x72 0xf8 0xfa 0x41 0x8b;
  e 0xdb 0xed 0x7a 0xee 0x28 0x4b 0xfa 0xae 0xcf;
  e 0x68 0x6a 0x39 0x42 0xa3 0xcc 0xfa 0x9c 0x47;
  e 0xb9 0xcf 0x7f 0x29 0x78 0x93 0xfa 0x5d 0x9f;
  e 0x0c 0xd0 0xed 0xa8 0x1a 0x8c 0xfa 0x57 0xeb].
Definition A_27 : list aff := [
  e 0xce 0x7f 0xd0 0x0d 0x03 0xd9 0xfa 0xd5 0x3b;
  e 0xf0 0x71 0x2a 0xcd 0x2e 0xe2 0x28 0x44 0xc7;
  e 0x34 0xfe 0x9b 0x03 0xbc 0x6d 0x28 0x4f 0xee;
  e 0x1d 0x15 0xfe 0x0f 0xb7 0xae 0x28 0x9a 0xb6;
  e 0xa6 0x2a 0x3a 0x70 0xdf 0x91 0x28 0x36 0x26;
  e 0x22 0x9b 0x71 0x2c 0x5a 0x20 0x28 0xd0 0xf3;
  e 0x99 0x1f 0x26 0xc0 0x1a 0xa4 0x28 0xc7 0x2e;
  e 0x63 0x26 0x15 0x61 0xfd 0xb5 0x28 0xa8 0xce;
  e 0x8a 0xe8 0xe1 0xf7 0x37 0x92 0xf2 0x15 0x42;
  e 0x87 0xe1 0xea 0xba 0xef 0x69 0xf2 0xbc 0x32;
  e 0xe9 0x1c 0xb7 0xf3 0x98 0x94 0xf2 0x64 0xfe;
  e 0xd5 0xea 0x1c 0xdd 0x54 0x90 0xf2 0x79 0x7b;
  e 0xaf 0xcf 0xfa 0x41 0x1f 0xb5 0xf2 0xd4 0x9e;
  e 0x0f 0x8f 0xcf 0x17 0xde 0x07 0xf2 0xa8 0x4e;
  e 0xf0 0xb7 0x8f 0xe3 0x8e 0xcd 0xf2 0xc2 0xea;
  e 0x61 0xfa 0xe8 0x24 0x5b 0x72 0xf2 0xf8 0xba;
  e 0x51 0xeb 0x87 0xfd 0xf1 0x5b 0x29 0x80 0xa1;
  e 0x40 0x77 0xeb 0x5f 0x3b 0xee 0x29 0xbf 0x99;
  e 0x42 0x85 0x4e 0x48 0x28 0x1c 0x29 0x20 0xec;
  e 0xe1 0x36 0x85 0x4f 0xb7 0x86 0x29 0xc4 0xa1;
  e 0x3c 0x4e 0x77 0xf9 0x16 0xfe 0x29 0xbe 0xd4;
  e 0xd9 0xec 0x36 0x1b 0xcd 0x75 0x29 0x94 0x99;
  e 0x8c 0x23 0xec 0xd2 0x79 0x93 0x29 0x4a 0xd4;
  e 0xdb 0x87 0x23 0xbc 0xf7 0x1e 0x29 0x92 0xec;
  e 0x2f 0x70 0x0c 0x9d 0x07 0xf5 0x5d 0x55 0x81;
  e 0x9b 0x12 0x70 0x56 0x13 0xca 0x5d 0xe5 0x01;
  e 0xaa 0x90 0xef 0xfb 0xdc 0x15 0x5d 0x6d 0xb9;
  e 0xa0 0x0c 0x87 0x1f 0x47 0xd4 0x5d 0x1b 0xa9;
  e 0x78 0xef 0xe2 0xa2 0x44 0x37 0x5d 0x7d 0xe4;
  e 0x4a 0xe2 0x12 0x3e 0xed 0x67 0x5d 0xfc 0xc5;
  e 0x43 0x29 0x90 0x6e 0x4d 0xf1 0x5d 0x5b 0x4c;
  e 0xcf 0x87 0x29 0x80 0x6b 0x02 0x5d 0x41 0xfd;
  e 0x2c 0x16 0x2b 0x95 0x39 0x6f 0x97 0x18 0x6e;
  e 0x9c 0xce 0x16 0x85 0xfe 0x20 0x97 0x0c 0x72;
  e 0x77 0x2b 0xd4 0xd5 0xd6 0xc5 0x97 0x71 0xdb;
  e 0x55 0x8e 0x2e 0xe9 0x4a 0xf7 0x97 0x6e 0x2a;
  e 0xcd 0x35 0xce 0x7f 0x83 0x4c 0x97 0xd0 0xef;
  e 0x72 0x25 0x8e 0xf3 0xf4 0xcb 0x97 0x9e 0x97;
  e 0xb4 0xd4 0x25 0xed 0x67 0xad 0x97 0xdf 0x93;
  e 0x99 0x2e 0x35 0xda 0x4b 0xc0 0x97 0x0d 0x73;
  e 0xf5 0x9e 0xad 0x52 0x71 0x7a 0xeb 0x44 0xd3;
  e 0xdf 0x77 0x0c 0xaa 0xf2 0x78 0xeb 0x69 0x0a;
  e 0x83 0x12 0x99 0x1f 0xcc 0xf6 0xeb 0x26 0xa7;
  e 0x31 0x4c 0x12 0xbe 0xae 0x43 0xeb 0xc0 0xc6;
  e 0xd0 0x99 0x9e 0x37 0x6a 0x96 0xeb 0x63 0x76;
  e 0x3e 0xad 0x64 0xc7 0xdd 0xa2 0xeb 0xc5 0x82;
  e 0x67 0x64 0x77 0x15 0x5b 0x80 0xeb 0x5f 0x0f;
  e 0x11 0x0c 0x4c 0x57 0x0d 0xe8 0xeb 0xd9 0x36;
  e 0x3e 0x32 0xff 0x96 0xae 0x1a 0xbb 0x46 0xd3;
  e 0x16 0x72 0x13 0x52 0x91 0x5a 0xbb 0x95 0x36;
  e 0x5c 0xff 0x9f 0x10 0xb2 0x6c 0xbb 0x12 0x82;
  e 0x7e 0x9f 0x8b 0x31 0x20 0xb7 0xbb 0x07 0x0f;
  e 0xcf 0x13 0xf7 0xeb 0x1e 0x80 0xbb 0xd6 0xc6;
  e 0x23 0xf4 0x32 0xea 0xef 0x67 0xbb 0x59 0x76;
  e 0x56 0xf7 0xf4 0x66 0xa4 0xdf 0xbb 0xfc 0xa7;
  e 0xb0 0x8b 0x72 0x39 0xf8 0x18 0xbb 0x0e 0x0a;
  e 0x8a 0x02 0x47 0x21 0xb3 0x55 0x17 0x27 0x5e;
  e 0x72 0x47 0xc8 0xc5 0xfe 0x07 0x17 0xb2 0x87;
  e 0xc9 0xd9 0x02 0xe3 0x82 0x99 0x17 0x13 0x27;
  e 0xe2 0xa0 0xd9 0x97 0x23 0xf7 0x17 0x3e 0x02;
  e 0x32 0xbc 0xa0 0xed 0x3a 0xfc 0x17 0x1e 0x17;
  e 0xb5 0xc8 0x62 0x7b 0xb0 0x9f 0x17 0x16 0x33;
  e 0xdd 0x3d 0xbc 0x8d 0x37 0x6a 0x17 0x58 0x57;
  e 0x89 0x62 0x3d 0x9c 0x51 0x22 0x17 0xff 0xfa].
Definition A_28 : list aff := [
  e 0xb0 0x5e 0xfa 0x18 0x21 0xb3 0xf1 0xba 0x01;
  e 0x09 0xfa 0xf2 0xd4 0x1b 0xe6 0xf1 0x65 0x81;
  e 0xb6 0xa1 0x5e 0x2a 0x2e 0xbd 0xf1 0x0d 0xc5;
  e 0x6e 0x2c 0xa1 0x81 0x46 0xc1 0xf1 0x77 0xe4;
  e 0x15 0x59 0x2c 0x16 0x8b 0x45 0xf1 0x2b 0xb9;
  e 0x83 0xf2 0x1e 0xd3 0x3b 0x1f 0xf1 0xb5 0xa9;
  e 0x5d 0x6d 0x59 0x56 0xad 0x80 0xf1 0x95 0x4c;
  e 0xaa 0x1e 0x6d 0x05 0x4f 0x02 0xf1 0x5f 0xfd;
  e 0x81 0x03 0x2b 0xbb 0xad 0xdf 0xd4 0xd5 0xaf;
  e 0xc3 0x8a 0xfd 0x27 0xe3 0x56 0xd4 0x99 0x4b;
  e 0xcf 0xfd 0x41 0x18 0xb2 0xf5 0xd4 0xa8 0xa2;
  e 0xc7 0x30 0x03 0x52 0xe1 0x38 0xd4 0xb9 0xde;
  e 0x0a 0x2b 0x8a 0xca 0xe5 0x23 0xd4 0xe0 0x67;
  e 0x5d 0x41 0xee 0xa2 0x22 0x9d 0xd4 0x9f 0x4a;
  e 0x1f 0x14 0x30 0x36 0xb8 0xc8 0xd4 0x0f 0xe3;
  e 0x02 0xee 0x14 0x5c 0x62 0xe6 0xd4 0xf9 0x23;
  e 0x23 0xed 0x59 0x78 0x24 0x80 0xdf 0x3b 0x44;
  e 0x67 0x7c 0x8f 0x58 0x61 0x11 0xdf 0x77 0x7c;
  e 0x4e 0xa9 0x84 0xc8 0x0f 0xc4 0xdf 0xcd 0x44;
  e 0xd4 0xe0 0xed 0xa2 0x68 0x52 0xdf 0x71 0xe5;
  e 0x66 0x8f 0xa9 0x54 0x2e 0x3d 0xdf 0x73 0xe5;
  e 0xbb 0x59 0x7c 0x31 0xdb 0xeb 0xdf 0x8c 0xa8;
  e 0x09 0x84 0x55 0xaa 0x42 0x36 0xdf 0x3c 0xa8;
  e 0x0a 0x55 0xe0 0x5a 0x95 0x38 0xdf 0xec 0x7c;
  e 0xf4 0x57 0x2d 0x88 0xc1 0x30 0x47 0xe8 0x57;
  e 0xc6 0xb1 0xa4 0x13 0xdf 0xd6 0x47 0x38 0x33;
  e 0xd8 0x2d 0x83 0x2e 0x4c 0x0d 0x47 0xac 0x17;
  e 0xf8 0x3b 0xb1 0x3c 0x0f 0x1b 0x47 0xdd 0x87;
  e 0xa1 0x83 0x92 0x42 0xfb 0xe4 0x47 0x2a 0x02;
  e 0xee 0xa4 0x57 0xab 0x03 0x84 0x47 0x70 0xfa;
  e 0xce 0x92 0x02 0xde 0x07 0xb2 0x47 0x21 0x27;
  e 0x93 0x02 0x3b 0xf9 0xa2 0x65 0x47 0x9d 0x5e;
  e 0x6c 0xa1 0x55 0x9b 0x25 0x67 0xea 0x7d 0xfc;
  e 0x1a 0x55 0xe1 0x78 0x90 0x79 0xea 0xba 0xcd;
  e 0x7e 0xed 0xa1 0x9a 0x2d 0xc1 0xea 0xad 0x6c;
  e 0x52 0x89 0x0e 0x19 0x20 0xa5 0xea 0x0f 0x19;
  e 0x36 0x1d 0x88 0x3d 0x77 0x31 0xea 0x34 0xb8;
  e 0xaa 0x0e 0x1d 0x15 0xee 0xc8 0xea 0xfe 0x89;
  e 0xc3 0xe1 0x89 0xc4 0x1b 0x27 0xea 0x75 0x10;
  e 0x05 0x88 0xed 0x66 0x3a 0x4e 0xea 0x30 0x65;
  e 0x76 0x08 0x37 0xec 0x7d 0x2d 0x14 0x01 0x68;
  e 0x53 0xee 0x8e 0x70 0x13 0xcb 0x14 0xd6 0x84;
  e 0xb5 0x8c 0xb6 0x9f 0xe4 0xa9 0x14 0x0d 0x0d;
  e 0x95 0x3e 0xee 0x89 0xc8 0x0f 0x14 0x5c 0x8c;
  e 0x2c 0x37 0x4f 0xb4 0xb7 0x06 0x14 0x96 0x41;
  e 0x90 0x4f 0x3e 0x32 0x9e 0x6a 0x14 0xff 0x94;
  e 0xa4 0xb6 0x08 0x5e 0x83 0x87 0x14 0xf1 0x2d;
  e 0x1d 0x8e 0x8c 0x46 0xe8 0xbf 0x14 0x0a 0x95;
  e 0xe5 0xbb 0x94 0x8c 0x78 0x1e 0x3a 0x80 0x2d;
  e 0x9e 0x94 0xc1 0x51 0x77 0x0b 0x3a 0x7f 0x68;
  e 0xd1 0xf5 0xf7 0x44 0x37 0x50 0x3a 0x96 0x95;
  e 0x59 0xaf 0x2a 0xd8 0xa9 0x30 0x3a 0x70 0x94;
  e 0xc6 0xf7 0xbb 0xd6 0xc5 0x68 0x3a 0x8d 0x0d;
  e 0x01 0x53 0xf5 0xfa 0x21 0xcc 0x3a 0x1d 0x84;
  e 0x40 0x2a 0x53 0xee 0xb1 0x8f 0x3a 0x8e 0x8c;
  e 0x74 0xc1 0xaf 0xb9 0xc4 0x64 0x3a 0x3d 0x41;
  e 0xa8 0xfb 0xa6 0xd8 0x0a 0x13 0x82 0x36 0xf4;
  e 0x71 0x6b 0xb7 0x08 0x06 0x01 0x82 0x41 0x39;
  e 0x0c 0x9d 0x55 0xe5 0x23 0x75 0x82 0x6e 0xb0;
  e 0x4f 0xf2 0x9d 0xf4 0x7b 0x98 0x82 0x94 0x91;
  e 0x1b 0x55 0xfb 0x2e 0x9c 0x3f 0x82 0x97 0x74;
  e 0x25 0xa6 0x39 0x3a 0x63 0xcc 0x82 0x28 0xdc;
  e 0xe4 0x39 0x6b 0x33 0xd3 0xd1 0x82 0xa0 0x88;
  e 0x40 0xb7 0xf2 0x64 0x78 0x5f 0x82 0x10 0xcc].
Definition A_29 : list aff := [
  e 0x0b 0x24 0xd3 0xfe 0xd7 0x68 0xd6 0x76 0xd7;
  e 0x84 0x23 0xad 0xe7 0x39 0xb9 0xd6 0xaa 0xda;
  e 0xee 0x81 0x70 0x1c 0xc4 0x1b 0xd6 0x5c 0x96;
  e 0x13 0xad 0xeb 0x44 0xda 0xe1 0xd6 0x95 0x12;
  e 0x47 0x70 0x23 0x42 0xe9 0x3c 0xd6 0xb8 0xab;
  e 0x74 0xeb 0x24 0xd2 0xb6 0x71 0xd6 0x7a 0x3e;
  e 0x5f 0xb5 0x81 0x62 0x32 0xf9 0xd6 0x17 0x56;
  e 0x1e 0xd3 0xb5 0x65 0x9d 0x49 0xd6 0x16 0x3f;
  e 0x7c 0x12 0x5d 0xfc 0x1e 0x3b 0x99 0x68 0x31;
  e 0x53 0x5d 0xde 0xcb 0xbb 0xed 0x99 0x67 0xdd;
  e 0x55 0xe4 0x19 0x91 0x1c 0xcd 0x99 0x2e 0x31;
  e 0xe3 0x19 0x01 0xa4 0x09 0xa9 0x99 0x0a 0xdd;
  e 0x8a 0xde 0x27 0xc0 0x75 0xf7 0x99 0xe0 0x09;
  e 0x17 0x27 0xe4 0x9c 0xbd 0x97 0x99 0xc2 0x90;
  e 0xa7 0xd3 0x12 0xda 0x96 0x63 0x99 0x1f 0x90;
  e 0xa3 0x01 0xd3 0x1d 0xee 0x28 0x99 0x8f 0x09;
  e 0x88 0xbf 0x9b 0x12 0xc9 0x2b 0x8b 0x70 0x66;
  e 0x5b 0x9b 0x28 0x4f 0xb1 0x84 0x8b 0x2f 0xca;
  e 0xce 0xc1 0xbf 0xd9 0xd4 0xde 0x8b 0x56 0x6a;
  e 0x3f 0x9f 0xc1 0xe0 0xad 0x0b 0x8b 0xc5 0x3a;
  e 0x44 0x11 0x9f 0xe7 0x18 0x0e 0x8b 0x31 0x5a;
  e 0xab 0x28 0x54 0xe1 0x90 0xbc 0x8b 0x6d 0x0b;
  e 0x1c 0x9c 0x11 0x0c 0x7f 0x08 0x8b 0x4c 0x6f;
  e 0xd1 0x54 0x9c 0xe5 0xf6 0x4b 0x8b 0x57 0xb7;
  e 0x7c 0x3e 0x68 0x34 0xbe 0x28 0x63 0xb1 0x2a;
  e 0xaf 0xd1 0x3e 0xb5 0xf4 0xa4 0x63 0xd8 0x97;
  e 0xec 0x2b 0x66 0xb8 0x64 0x5e 0x63 0x73 0xdb;
  e 0x6a 0x79 0x2b 0x61 0xcf 0x6f 0x63 0x83 0x6e;
  e 0x2d 0x66 0xd1 0xa9 0x0a 0x70 0x63 0xdf 0x93;
  e 0xda 0xe7 0x79 0x87 0x93 0x92 0x63 0xf8 0x72;
  e 0x3b 0x37 0xe7 0x89 0x18 0x21 0x63 0xfb 0xef;
  e 0x99 0x68 0x37 0x9c 0x60 0x1d 0x63 0x26 0x73;
  e 0x0b 0x8a 0xf6 0xe1 0xe9 0x29 0x8c 0xf2 0xee;
  e 0xf4 0x66 0xfc 0xd6 0xa2 0x49 0x8c 0x10 0x2e;
  e 0x4b 0x8e 0x7b 0x4d 0xb0 0xa1 0x8c 0x09 0x26;
  e 0x59 0xfc 0x31 0x5b 0x6b 0x5f 0x8c 0x3b 0xce;
  e 0xa8 0x7b 0x66 0xd2 0xa7 0xd8 0x8c 0x2c 0xdf;
  e 0x64 0x31 0x8a 0x93 0x5d 0x1e 0x8c 0x15 0xb6;
  e 0xfa 0xae 0x8e 0x47 0xa9 0x0d 0x8c 0x46 0xc7;
  e 0xdb 0xf6 0xae 0xab 0xc3 0xd9 0x8c 0x23 0xf3;
  e 0x94 0xdf 0x51 0x69 0x15 0x24 0x7f 0x80 0x4f;
  e 0x07 0x5c 0x59 0x76 0xb6 0xa7 0x7f 0x54 0x1a;
  e 0xa4 0x51 0xcf 0x87 0xd9 0xd5 0x7f 0x29 0x1f;
  e 0x20 0x82 0x5c 0x90 0x62 0x06 0x7f 0x01 0xc2;
  e 0xfc 0xcf 0x0e 0xda 0xf6 0x34 0x7f 0x43 0x13;
  e 0xf3 0x59 0xdf 0x3b 0xd6 0xdd 0x7f 0x49 0x2f;
  e 0x77 0x0e 0xb7 0xd7 0x12 0x8a 0x7f 0xe5 0xbf;
  e 0x6f 0xb7 0x82 0x41 0x2a 0x4c 0x7f 0x6c 0x7e;
  e 0xf6 0xe1 0xf2 0x15 0xfd 0x6e 0x4a 0x4d 0x0a;
  e 0x23 0xf2 0xd2 0x67 0x8d 0x37 0x4a 0x92 0x36;
  e 0x78 0x5e 0xb2 0xd3 0xd7 0x9b 0x4a 0xe2 0xa7;
  e 0x79 0xb2 0xa9 0xc1 0x30 0x3d 0x4a 0xdb 0x76;
  e 0xe6 0xa9 0x0e 0x7e 0x85 0x6c 0x4a 0x46 0xd3;
  e 0x2a 0x0e 0xc0 0x3e 0xf4 0x81 0x4a 0x3c 0x82;
  e 0xa5 0xd2 0x5e 0x2f 0x73 0x5d 0x4a 0x25 0xc6;
  e 0xbd 0xc0 0xe1 0x45 0x95 0x05 0x4a 0xf3 0x0f;
  e 0x78 0xd6 0x22 0x9b 0x48 0xb6 0x10 0x71 0x9b;
  e 0xc7 0x22 0xde 0xb3 0x55 0x52 0x10 0xf0 0x86;
  e 0x16 0x85 0x0c 0xd0 0x8a 0xf5 0x10 0xed 0x53;
  e 0x18 0x0c 0xf3 0x2a 0x33 0x6c 0x10 0xdb 0xaa;
  e 0xb7 0xf3 0x64 0x79 0x5e 0x83 0x10 0x41 0x5b;
  e 0xa2 0xde 0x85 0x96 0x26 0xbe 0x10 0xa8 0xb2;
  e 0x66 0x24 0xd6 0x7a 0x91 0x54 0x10 0x2c 0xc3;
  e 0xf4 0xa9 0xe8 0x74 0xd5 0xd6 0x84 0x91 0x73].
Definition A_30 : list aff := [
  e 0x30 0xa6 0xd0 0x73 0x8a 0xd9 0x84 0x72 0x72;
  e 0xab 0xd0 0x6d 0x86 0x9a 0x2b 0x84 0xa0 0x6e;
  e 0x50 0xc7 0xa9 0xb9 0x36 0x3c 0x84 0xc8 0x2a;
  e 0x47 0xe8 0xa6 0xde 0x56 0x13 0x84 0x23 0xef;
  e 0x8b 0x6d 0x04 0xe7 0x06 0x12 0x84 0xae 0xdb;
  e 0x4f 0x1d 0xc7 0x1b 0xdd 0x62 0x84 0x32 0x97;
  e 0xbc 0x04 0x1d 0x9e 0x7e 0xff 0x84 0xb0 0x93;
  e 0x60 0x35 0xae 0xf4 0x1a 0x59 0xfd 0x11 0x7b;
  e 0x48 0xae 0xc4 0x82 0xcd 0x3f 0xfd 0xc0 0xfe;
  e 0x8f 0x8a 0xaa 0x47 0x89 0x1b 0xfd 0x17 0x4e;
  e 0xff 0xc4 0x8a 0xde 0xf5 0xa8 0xfd 0x27 0xea;
  e 0x93 0x37 0xdc 0xe4 0xc1 0x5b 0xfd 0x45 0x42;
  e 0xd9 0x69 0x37 0xe0 0x95 0xf8 0xfd 0x6b 0xba;
  e 0x0c 0xaa 0x69 0x5f 0xd3 0xc6 0xfd 0x1f 0x9e;
  e 0x1e 0xdc 0x35 0x49 0x2c 0x4d 0xfd 0x2d 0x32;
  e 0x03 0xcf 0xc6 0xf7 0x3e 0xcb 0x55 0xbb 0xac;
  e 0x46 0x84 0xcf 0xad 0x0b 0xd5 0x55 0xd6 0x0c;
  e 0x70 0xc6 0x9d 0xcd 0x3f 0x97 0x55 0xe5 0xc1;
  e 0x07 0xbe 0xa1 0x94 0x79 0xba 0x55 0x9b 0x35;
  e 0x76 0xe8 0x84 0x91 0x38 0xec 0x55 0xaa 0x50;
  e 0x72 0x9d 0xb2 0xa3 0x2a 0x99 0x55 0x8e 0xbc;
  e 0x17 0xb2 0xbe 0x8d 0x48 0xe3 0x55 0xe4 0xd8;
  e 0x21 0xa1 0xe8 0xe9 0x29 0xf0 0x55 0x86 0x60;
  e 0x67 0xe3 0x4d 0x80 0x95 0x39 0xc1 0xa3 0x19;
  e 0x9a 0x4d 0x9f 0xcf 0xde 0x56 0xc1 0xe0 0x89;
  e 0xb6 0x9f 0x0d 0x0a 0x03 0x45 0xc1 0xb4 0xb8;
  e 0x6c 0x94 0x7d 0xa0 0x63 0x4e 0xc1 0xa4 0xcd;
  e 0x81 0x26 0x94 0xdf 0x64 0x3d 0xc1 0x51 0xfc;
  e 0xbd 0x32 0x26 0x31 0x34 0xe8 0xc1 0x69 0x6c;
  e 0xea 0x7d 0xe3 0x19 0x82 0x66 0xc1 0x01 0x10;
  e 0xbf 0xd9 0x56 0xc5 0x71 0x91 0xcb 0xe1 0x04;
  e 0xf7 0x33 0xb1 0x6a 0xff 0x7b 0xcb 0x88 0x9d;
  e 0x14 0x0a 0xd9 0xec 0xaa 0x89 0xcb 0x36 0x48;
  e 0xf3 0xb1 0x47 0xdd 0xe6 0x32 0xcb 0x2f 0x1c;
  e 0x1d 0x47 0x0a 0xb8 0x1c 0x0f 0xcb 0x1b 0xb5;
  e 0x55 0xe5 0x6e 0x94 0x59 0xad 0xcb 0x3a 0x59;
  e 0x70 0x56 0xe5 0xfc 0xeb 0xd5 0xcb 0x80 0xbd;
  e 0x97 0x6e 0x33 0x85 0x6c 0xed 0xcb 0x1a 0x9c;
  e 0x3b 0x71 0x54 0x14 0x62 0x6a 0xda 0xe7 0xd5;
  e 0xed 0xa2 0x71 0xec 0x39 0x63 0xda 0x58 0x29;
  e 0x8d 0x54 0x8b 0x6d 0x45 0x95 0xda 0x04 0x18;
  e 0x4c 0xf5 0x3a 0x1d 0x4e 0x34 0xda 0xbe 0x20;
  e 0x2c 0xc2 0xdb 0x87 0xe8 0x03 0xda 0x23 0x11;
  e 0x20 0xdb 0xf5 0xae 0xa8 0xc0 0xda 0x8c 0x98;
  e 0x91 0x8b 0xc2 0xe9 0x75 0x90 0xda 0xbc 0x08;
  e 0x8a 0x3a 0xa2 0x92 0x65 0x21 0xda 0xcc 0x45;
  e 0xc7 0x68 0xf0 0x0a 0x1c 0x54 0xb6 0x44 0xd3;
  e 0xfb 0xfd 0x7b 0xbd 0x88 0xc1 0xb6 0x5b 0x36;
  e 0x10 0xf0 0x25 0x2a 0x99 0x7a 0xb6 0x28 0x82;
  e 0x52 0x25 0xdc 0x39 0x40 0x19 0xb6 0x82 0x0f;
  e 0x9a 0x7b 0x8c 0x09 0x87 0xf1 0xb6 0x9f 0xc6;
  e 0x11 0xdd 0x68 0x5a 0xda 0x57 0xb6 0x90 0x76;
  e 0x6e 0x8c 0xdd 0x04 0x62 0xb0 0xb6 0xa1 0xa7;
  e 0x9b 0xdc 0xfd 0x45 0x72 0x56 0xb6 0xad 0x0a;
  e 0xf2 0xbc 0x67 0xe3 0x59 0x24 0x92 0x4d 0xae;
  e 0x87 0x78 0xbc 0xac 0x45 0x72 0x92 0x80 0x1b;
  e 0x69 0x67 0x44 0x22 0x35 0x6d 0x92 0x9a 0xe6;
  e 0x6a 0xb9 0x83 0x9f 0xb2 0x21 0x92 0x42 0x06;
  e 0x6f 0xd9 0x78 0x6b 0x5f 0x41 0x92 0xc6 0x07;
  e 0xf7 0x44 0x96 0x1d 0x26 0xdc 0x92 0x51 0xe2;
  e 0x8d 0x96 0xb9 0xa3 0x36 0x9c 0x92 0xf6 0x5f;
  e 0x63 0x83 0xd9 0xb5 0xd4 0x89 0x92 0xe6 0x9a;
  e 0xa5 0x69 0x25 0x9a 0xe3 0x6e 0x37 0x24 0x89;
  e 0x5a 0x03 0x75 0x05 0xf3 0x04 0x37 0x53 0x10].
Definition A_31 : list aff := [
  e 0xa2 0x91 0x08 0xb0 0x06 0x96 0x37 0xec 0xfc;
  e 0x67 0x68 0x91 0x39 0xb9 0x58 0x37 0xfa 0x6c;
  e 0x57 0x75 0x69 0xf1 0x5b 0x45 0x37 0xe0 0x19;
  e 0x4a 0x25 0xfc 0x7e 0x51 0x15 0x37 0x48 0xb8;
  e 0x5d 0xfc 0x68 0x1f 0x21 0xfb 0x37 0x9c 0x65;
  e 0x7a 0x08 0x03 0xb1 0x84 0x38 0x37 0x62 0xcd;
  e 0x54 0xf9 0xc9 0x37 0x7d 0x58 0xca 0x65 0xff;
  e 0x5d 0x55 0x82 0x6e 0xf3 0x3e 0xca 0xcb 0x63;
  e 0x8e 0x1c 0x5e 0x11 0xce 0xbd 0xca 0x8b 0xd6;
  e 0x56 0xa9 0x1c 0x5a 0x20 0xc2 0xca 0x4c 0xfb;
  e 0x36 0x5e 0xf9 0x7e 0x22 0x35 0xca 0x61 0xbe;
  e 0x3d 0xc9 0xc6 0xeb 0x3b 0xa2 0xca 0x8d 0x6b;
  e 0x2f 0xc6 0x55 0xbb 0x74 0x67 0xca 0x3a 0xe7;
  e 0xf5 0x82 0xa9 0xf6 0x0d 0x23 0xca 0x75 0xf6;
  e 0x57 0x6d 0xe0 0x81 0xcb 0x38 0x04 0x0f 0x67;
  e 0x37 0xe0 0x6b 0x1f 0xee 0xb1 0x04 0xf4 0x4b;
  e 0x05 0x82 0x7f 0x6c 0xdb 0xd3 0x04 0xd1 0x4a;
  e 0x02 0x7f 0xd2 0xe6 0xba 0x2a 0x04 0x4c 0x23;
  e 0x66 0xd2 0x2c 0x09 0xce 0x83 0x04 0x93 0xe3;
  e 0x10 0x2c 0xe1 0x96 0xec 0x79 0x04 0x2d 0xde;
  e 0x45 0x6b 0x82 0xa0 0x99 0x3e 0x04 0x3b 0xa2;
  e 0x54 0xe1 0x6d 0x2f 0xff 0xb0 0x04 0xe7 0xaf;
  e 0x20 0xc4 0xfd 0xc0 0x6e 0xf3 0x07 0x5c 0xcc;
  e 0x17 0x16 0xe7 0xed 0x96 0x21 0x07 0xbe 0xf4;
  e 0x85 0x4f 0xc4 0x94 0x64 0x7f 0x07 0x5f 0x39;
  e 0x9f 0xe7 0x31 0x4c 0xdb 0xd7 0x07 0x12 0xdc;
  e 0xc5 0x31 0x4f 0xa7 0x04 0x06 0x07 0x83 0x88;
  e 0xf2 0xd4 0x65 0xba 0xfb 0xe3 0x07 0x56 0xb0;
  e 0xaf 0xfd 0xd4 0x99 0x13 0xcd 0x07 0x3f 0x91;
  e 0xb5 0x65 0x16 0x76 0xab 0x55 0x07 0x42 0x74;
  e 0x1a 0x0d 0xbf 0xdf 0xd6 0x52 0xc3 0xe1 0xfc;
  e 0xb3 0xbf 0x8b 0x56 0x97 0x23 0xc3 0xcb 0xcd;
  e 0x0a 0x53 0xff 0xc4 0x61 0xcf 0xc3 0x8a 0x19;
  e 0x45 0xff 0x06 0x39 0x01 0xa0 0xc3 0x8f 0x89;
  e 0x2f 0x06 0x26 0x67 0xdc 0x9a 0xc3 0x2d 0xb8;
  e 0xb7 0x26 0x76 0x27 0xd2 0x79 0xc3 0xef 0x65;
  e 0xe8 0x8b 0x53 0x5d 0xc6 0xd4 0xc3 0xde 0x10;
  e 0x96 0x76 0x0d 0xaa 0xe9 0xea 0xc3 0xf0 0x6c;
  e 0x80 0x49 0xd7 0x19 0xd1 0x7a 0x52 0xd8 0x79;
  e 0x7e 0xee 0xf0 0xb7 0x86 0x9a 0x35 0x8f 0x19;
  e 0x94 0x62 0x83 0x7c 0xdb 0x69 0xba 0xf9 0x59;
  e 0xa7 0x3a 0x1f 0x14 0x47 0xa9 0x28 0x30 0xdf;
  e 0x05 0x29 0x22 0xb1 0xff 0xb7 0x19 0x86 0x4c;
  e 0xee 0x19 0xe2 0x84 0x2f 0xff 0x4b 0xb7 0xe9;
  e 0xf1 0x0d 0x32 0xd3 0xf9 0x16 0xc1 0xab 0x65;
  e 0xc2 0x8a 0x68 0x1a 0x76 0x57 0xf6 0x87 0xe5;
  e 0x45 0x33 0x3b 0xd4 0xd6 0x38 0xb1 0x3c 0x8e;
  e 0xc2 0x64 0x24 0x57 0x4d 0x04 0x10 0x62 0xbb;
  e 0x44 0x38 0x06 0xce 0x83 0xfa 0x7d 0xaa 0x5a;
  e 0x8d 0x65 0xf6 0x28 0x4b 0x6d 0xdc 0xff 0x66;
  e 0x4b 0xe8 0x55 0x86 0x27 0x75 0xe1 0x78 0x6a;
  e 0x30 0x36 0x0f 0xf9 0x2f 0x73 0x64 0xca 0x3e;
  e 0x1f 0xa3 0x2e 0x81 0x32 0x7e 0xf6 0x85 0xe5;
  e 0x54 0xba 0x33 0xd0 0x53 0x2f 0x3d 0xc9 0xd9;
  e 0x9d 0xf4 0x94 0x10 0xd2 0xb6 0x11 0xd8 0xe1].
(** se_wbsm4_local.h:6, as SE_initial leaves it *)
Definition SE_A : list aff :=
  concat [A_0; A_1; A_2; A_3; A_4; A_5; A_6; A_7; A_8; A_9; A_10; A_11; A_12; A_13; A_14; A_15; A_16; A_17; A_18; A_19; A_20; A_21; A_22; A_23; A_24; A_25; A_26; A_27; A_28; A_29; A_30; A_31].
Definition B_0 : list aff := [
  e 0x0f 0x75 0x4a 0x55 0x92 0x63 0xcf 0x23 0x8f;
  e 0x80 0xda 0xbd 0x02 0x08 0x96 0x10 0x81 0x65;
  e 0x87 0x05 0x50 0xb0 0x1a 0xcb 0x3f 0x6e 0x11;
  e 0x1d 0xa5 0xb5 0x67 0x95 0xc9 0x60 0xbb 0xed;
  e 0x1d 0x2a 0x28 0x60 0x95 0xd3 0x67 0xa6 0x8d;
  e 0x87 0x17 0xd8 0x3f 0x1a 0xc3 0xb0 0xe9 0x22;
  e 0x0f 0x72 0xc2 0xcf 0x92 0xf6 0x55 0x2c 0xb9;
  e 0xbf 0x4e 0x5d 0x32 0xa7 0xe5 0x29 0xa6 0xfd;
  e 0xe0 0x7e 0x18 0x57 0xc5 0x62 0x2b 0x2c 0xbb;
  e 0x48 0x99 0x25 0xb2 0xba 0x7f 0x9b 0x01 0x2a;
  e 0x1f 0x43 0xf5 0x58 0x42 0x65 0x7c 0x6e 0x13;
  e 0xe7 0xeb 0x0a 0xdf 0x4d 0x77 0x24 0x23 0xe3;
  e 0x0d 0x4b 0xf2 0xd0 0xca 0x70 0xfb 0xe9 0x08;
  e 0xd2 0x0b 0xaa 0x2f 0x27 0x6a 0x1b 0x81 0xd1;
  e 0x30 0x54 0xc7 0xaf 0x3a 0xf0 0x34 0xbb 0x45;
  e 0x18 0x45 0xcc 0x11 0xa4 0xd2 0xc4 0xc0 0x5b;
  e 0x0a 0xcd 0xc4 0x83 0xab 0x48 0xcc 0x5a 0x0e;
  e 0xaa 0xa0 0x53 0xde 0x1c 0x0d 0x49 0x82 0x9f;
  e 0x5d 0xa8 0x19 0xe3 0x3b 0xe7 0x8b 0x7d 0x18;
  e 0xf2 0xd7 0xe4 0xdc 0x61 0xbf 0x71 0xb8 0x81;
  e 0xf5 0x5f 0x71 0xc6 0xe6 0x30 0xe4 0x37 0xee;
  e 0xc7 0x35 0x8b 0x76 0x26 0xe0 0x19 0x7a 0xea;
  e 0x25 0x3d 0x49 0xd6 0x9c 0x1f 0x53 0x90 0x57;
  e 0x90 0xdf 0x9c 0x0a 0xa6 0xc3 0xc8 0x34 0x82;
  e 0xb8 0x2f 0x61 0xaa 0x2c 0xc9 0x8a 0x24 0xd7;
  e 0x82 0x57 0x1c 0x18 0xbb 0xcb 0x52 0x29 0xe0;
  e 0x37 0xb2 0xe6 0x25 0x23 0xd3 0x98 0x2b 0x27;
  e 0x7d 0xd0 0x3b 0xf2 0x81 0xf6 0xa2 0x9b 0x33;
  e 0xc0 0xaf 0xa4 0xc7 0x6e 0x04 0xef 0xfb 0xb2;
  e 0x5a 0x32 0xab 0x5d 0xe9 0x96 0xe8 0x7c 0x6f;
  e 0x7a 0x58 0x26 0xf5 0x01 0x63 0x2d 0x1b 0x7c;
  e 0xcf 0x8a 0x98 0x9b 0x33 0x13 0xe6 0xeb 0xdd;
  e 0x55 0x98 0x8a 0x1b 0x2e 0x93 0x61 0x7e 0x4a;
  e 0x10 0x2d 0xa2 0xfb 0xbe 0x66 0x3b 0x0b 0x09;
  e 0x3f 0xe8 0xef 0x34 0x09 0xbc 0xa4 0x43 0x48;
  e 0x60 0xc8 0x52 0x2b 0x74 0xb6 0x1c 0x54 0x75;
  e 0xb0 0xef 0xe8 0x29 0x89 0xa1 0xab 0x4b 0xc0;
  e 0x67 0x52 0xc8 0x24 0xf3 0xb9 0x9c 0x4e 0x1f;
  e 0x02 0xa2 0x2d 0x7c 0xb1 0xe1 0x26 0x99 0x7c;
  e 0x6a 0x75 0x84 0x0e 0xbf 0x05 0x16 0x10 0xa6;
  e 0x65 0xda 0x44 0x69 0xe0 0x2a 0x4c 0x3f 0xf4;
  e 0xe5 0x05 0xd4 0x3c 0x48 0x72 0xce 0x67 0x2c;
  e 0x77 0xa5 0xf9 0x31 0x1f 0xda 0x6c 0xcf 0xd9;
  e 0x70 0x40 0x4c 0xee 0xe7 0xa5 0x44 0xb0 0xa1;
  e 0x62 0x2a 0x6c 0x3e 0x0d 0x40 0xf9 0x55 0xbe;
  e 0xf0 0x17 0xce 0x21 0xd2 0x75 0xd4 0x60 0x24;
  e 0x7f 0x72 0x16 0x8e 0x30 0x17 0x84 0x02 0x9c;
  e 0x69 0x4b 0xf1 0xf5 0xd6 0x66 0x3b 0x2f 0x91;
  e 0x3e 0xeb 0xd1 0x18 0x76 0xb9 0x9c 0x32 0xcf;
  e 0x8e 0x0b 0x46 0x25 0x83 0x93 0x61 0x57 0xcb;
  e 0x0e 0x99 0x5c 0xaa 0x11 0x13 0xe6 0xdf 0x14;
  e 0x31 0x7e 0xd9 0x0a 0xe3 0xb6 0x1c 0xaf 0x84;
  e 0x21 0x4e 0x0c 0xc7 0xc6 0xa1 0xab 0xd0 0x58;
  e 0x3c 0x54 0x9e 0x5d 0xdc 0xbc 0xa4 0x58 0x69;
  e 0xee 0x43 0x64 0xf2 0xde 0xe1 0x26 0xb2 0x34;
  e 0x62 0x0c 0x29 0xe8 0x6f 0x51 0x4d 0x58 0xff;
  e 0xf0 0xf1 0xfb 0xa2 0x22 0x03 0xa7 0xb2 0x78;
  e 0x77 0x9e 0x34 0xef 0x68 0x59 0xc5 0xd0 0xbc;
  e 0xe5 0x64 0x7c 0x2d 0xad 0x91 0x3a 0x2f 0x07;
  e 0x65 0x46 0x1b 0x8a 0x85 0xec 0xca 0xdf 0xf0;
  e 0x7f 0xd9 0x2b 0x52 0x4f 0xc1 0x27 0x32 0xcf;
  e 0x6a 0xd1 0x24 0xc8 0xd5 0xdb 0xba 0xaf 0xd4;
  e 0x70 0x5c 0x9b 0x98 0x97 0x79 0x42 0x57 0xd7;
  e 0xf6 0xf9 0x6a 0x1a 0xf7 0x9e 0x60 0xd1 0xdd].
Definition B_1 : list aff := [
  e 0xc9 0xd4 0x62 0x08 0xea 0x64 0x3f 0x0c 0x1d;
  e 0xc3 0x44 0xe5 0x92 0x78 0x46 0x10 0x64 0xa0;
  e 0x04 0x84 0x65 0x95 0xed 0xd1 0xcf 0x46 0x8b;
  e 0x96 0x16 0x70 0x95 0xf8 0xd9 0x55 0x5c 0x49;
  e 0xd3 0xce 0x77 0x08 0xff 0xf1 0xb0 0x9e 0x1a;
  e 0x63 0x6c 0x7f 0x1a 0xe2 0x0c 0x67 0xd9 0x19;
  e 0xcb 0x4c 0xf0 0x92 0x6d 0x5c 0x02 0xf1 0xa1;
  e 0x1a 0x0e 0x56 0x37 0x15 0x6b 0xb8 0x5b 0xa7;
  e 0x1a 0x8e 0x5e 0xb8 0x15 0xfe 0x37 0x41 0xf1;
  e 0x92 0x3c 0x6b 0xc0 0x15 0x5e 0x5a 0x8c 0x34;
  e 0x95 0x69 0x5b 0x7d 0x15 0x8c 0x7a 0x6b 0x44;
  e 0x08 0x3e 0x8c 0x90 0x15 0x41 0x82 0x5e 0xf2;
  e 0x92 0x21 0xfe 0x5a 0x15 0x56 0xc0 0x1e 0x07;
  e 0x95 0xee 0x41 0x7a 0x15 0x1e 0x7d 0xfe 0x01;
  e 0x08 0x31 0x1e 0x82 0x15 0x5b 0x90 0x56 0xd2;
  e 0xdc 0x56 0x72 0x37 0x25 0x26 0x8e 0x94 0x2f;
  e 0x83 0x6b 0x17 0xc0 0xc7 0x1c 0x21 0xb3 0x35;
  e 0x76 0x5b 0x40 0x7d 0xf2 0xab 0xee 0x7b 0x65;
  e 0xe3 0x41 0xda 0x7a 0xf5 0xa4 0x69 0xfc 0xc6;
  e 0xde 0x8c 0xa5 0x90 0x0a 0xe6 0x31 0x39 0x9f;
  e 0x11 0xfe 0x05 0x5a 0x5d 0x9c 0x3c 0xae 0xe9;
  e 0xd6 0x1e 0x2a 0x82 0x18 0x61 0x3e 0x36 0xfb;
  e 0xc6 0x5e 0x75 0xb8 0xaa 0x3b 0x0e 0x14 0x34;
  e 0xf5 0x98 0xb2 0x99 0x22 0xbd 0x8a 0x03 0xef;
  e 0xc7 0x2d 0x58 0x43 0x6f 0xd8 0xa2 0x51 0x8e;
  e 0x25 0xc8 0xdf 0xeb 0x85 0xc2 0x52 0xec 0x75;
  e 0xaa 0x52 0x57 0x7e 0x97 0x4a 0xc8 0x79 0x82;
  e 0x5d 0xa2 0xd0 0x4b 0x68 0x50 0x2d 0x59 0x68;
  e 0xf2 0x8a 0x2f 0x0b 0xad 0x20 0x98 0x91 0xd2;
  e 0x0a 0xe8 0x32 0x4e 0x4f 0xb5 0xef 0xc1 0x5e;
  e 0x18 0xef 0xaf 0x54 0xd5 0x28 0xe8 0xdb 0x72;
  e 0x2b 0xd3 0x93 0x96 0x83 0xaa 0x51 0x5e 0x88;
  e 0x1b 0x63 0x66 0xc3 0xd6 0xf2 0xdb 0x5b 0x11;
  e 0x29 0xcb 0xb9 0x63 0x76 0x0a 0x91 0x8c 0x6c;
  e 0x24 0xc9 0x13 0x04 0x11 0x25 0x59 0x56 0xb4;
  e 0xfb 0x04 0xa1 0xd3 0xc6 0x5d 0x79 0xfe 0x4d;
  e 0x9b 0xf6 0xe1 0xcb 0xde 0xf5 0xc1 0x41 0xf1;
  e 0x7c 0x96 0xbc 0xc9 0xdc 0xc7 0xec 0x6b 0x8a;
  e 0x34 0xc3 0xb6 0xf6 0xe3 0x18 0x03 0x1e 0x77;
  e 0x02 0x17 0x3c 0x08 0xb3 0xcf 0x50 0x28 0x33;
  e 0x67 0x72 0x0e 0x95 0x94 0xb0 0x4a 0xbd 0x22;
  e 0x10 0x05 0x21 0x08 0xae 0x55 0xd8 0xb5 0x34;
  e 0x3f 0x2a 0x31 0x1a 0x36 0x02 0xb5 0x4a 0x15;
  e 0xb0 0xa5 0x3e 0x1a 0x39 0x10 0x28 0xc2 0xd6;
  e 0xcf 0xda 0xee 0x92 0xfc 0x67 0x20 0xd8 0xee;
  e 0x55 0x40 0x69 0x92 0x7b 0x60 0xbd 0x50 0x05;
  e 0x60 0x75 0x8e 0x95 0x14 0x3f 0xc2 0x20 0x0d;
  e 0x63 0x49 0x01 0x53 0x1e 0xe9 0xb1 0x6b 0x74;
  e 0x04 0x71 0x6e 0xe4 0x5e 0xa6 0x09 0x1e 0x99;
  e 0xd3 0xc4 0x23 0xcc 0x6b 0x81 0x33 0x41 0x59;
  e 0xc9 0xcc 0x2c 0xc4 0xfe 0x01 0x2e 0x5b 0x55;
  e 0xf6 0x53 0x81 0x49 0x8c 0x6e 0xbe 0xfe 0xd9;
  e 0xc3 0x19 0xa6 0x8b 0x41 0x2c 0xf3 0x56 0xc0;
  e 0xcb 0x8b 0xbb 0x19 0x5b 0x23 0x74 0x5e 0x92;
  e 0x49 0x13 0x8d 0x04 0x62 0xee 0xa1 0x85 0x97;
  e 0x71 0xe1 0x38 0xcb 0x6a 0x3c 0xb9 0x22 0x34;
  e 0xcc 0xb6 0x47 0xf6 0xe5 0x8e 0xe1 0xd5 0xb9;
  e 0x53 0x93 0x9f 0x96 0x77 0x69 0xbc 0x97 0xc3;
  e 0x8b 0xbc 0xfa 0xc9 0x70 0x31 0x13 0x6f 0x40;
  e 0xe4 0x66 0xb7 0xc3 0x7f 0x21 0xb6 0xad 0xd5;
  e 0x19 0xa1 0xfd 0xd3 0x65 0x3e 0x93 0x68 0xc2;
  e 0xc4 0xb9 0xdd 0x63 0xf0 0x0e 0x66 0x4f 0x8e;
  e 0x86 0x7c 0x26 0xf1 0x96 0x18 0xa7 0x87 0xfc;
  e 0xac 0x1b 0x61 0x5c 0x63 0x5d 0x42 0x80 0x1e].
Definition B_2 : list aff := [
  e 0x73 0x34 0xa4 0x0c 0xc3 0xaa 0x4d 0x1d 0xb3;
  e 0xa9 0x24 0x9c 0xd9 0xc9 0xf5 0x27 0x0f 0xdb;
  e 0xf4 0x29 0xab 0x9e 0xcb 0x25 0xc5 0x1d 0x25;
  e 0x06 0xfb 0x3b 0x64 0x04 0x0a 0x3a 0x87 0x26;
  e 0xb4 0x2b 0x1c 0xd1 0xd3 0xf2 0xba 0x0f 0xf9;
  e 0xa3 0x9b 0xe6 0x46 0xf6 0xc7 0xca 0x80 0x70;
  e 0x46 0x85 0x83 0x73 0x38 0x71 0xcd 0x12 0xfd;
  e 0xf1 0x22 0xd6 0xb4 0xfa 0x8b 0x3d 0x8f 0x96;
  e 0xd9 0x4f 0xe3 0x86 0x8d 0x49 0xa8 0x9a 0x90;
  e 0x5c 0x97 0x11 0xf4 0xb7 0xe4 0x45 0x12 0xc3;
  e 0x0c 0x6f 0xc6 0xac 0x47 0xcc 0x5f 0x07 0xab;
  e 0x64 0xad 0xde 0xa9 0xfd 0x19 0xa0 0x8f 0x50;
  e 0x9e 0x68 0xdc 0xa3 0xdd 0xc4 0xd7 0x07 0x21;
  e 0xd1 0xd5 0x76 0x06 0x9f 0x53 0x35 0x9a 0xe2;
  e 0x47 0xee 0x7d 0xbd 0xb4 0xaa 0xda 0x7c 0x23;
  e 0xb7 0x31 0x90 0x28 0x06 0x5d 0x2a 0x2b 0xdd;
  e 0x8d 0x21 0xc0 0x50 0xa3 0xf5 0x05 0x29 0x98;
  e 0x9f 0x3c 0x5a 0xd8 0xac 0xf2 0x17 0x34 0xa8;
  e 0xfa 0x0e 0xb8 0xc2 0x73 0x18 0x72 0x9b 0x85;
  e 0x38 0x3e 0x82 0xb5 0x86 0xc7 0xa5 0x24 0x43;
  e 0xfd 0x8e 0x37 0x4a 0xf4 0x0a 0x75 0x1b 0xfc;
  e 0xdd 0x69 0x7a 0x20 0xa9 0x25 0x40 0xfb 0xf4;
  e 0xf9 0xf7 0x74 0x35 0x65 0x71 0xd5 0x04 0x97;
  e 0xd4 0xea 0x09 0x5f 0x7f 0x49 0x6f 0x63 0x30;
  e 0x16 0xf8 0x2e 0x45 0xf0 0x8b 0x97 0xcb 0xbf;
  e 0x4c 0x6d 0xb1 0x3d 0x77 0xc4 0x22 0xd3 0x70;
  e 0x44 0x78 0xbe 0xa0 0x62 0xcc 0xad 0xc9 0x62;
  e 0x6c 0xe2 0xf3 0xa8 0x70 0xe4 0x4f 0x96 0x20;
  e 0xce 0xff 0x89 0xd7 0x6a 0x53 0x68 0xf6 0x01;
  e 0x84 0xed 0x33 0xcd 0xe5 0x19 0x85 0xc3 0x2b;
  e 0x5e 0x41 0xee 0x4c 0xb3 0x28 0x10 0x3c 0x60;
  e 0x1e 0x56 0x0e 0x84 0xfc 0xd8 0x55 0xee 0xac;
  e 0x5b 0x6b 0x3c 0xd4 0x36 0x4a 0xb0 0x31 0xa3;
  e 0x41 0xfe 0x21 0xce 0x39 0xc2 0x3f 0x3e 0xe5;
  e 0x8c 0x5e 0x8e 0x16 0x7b 0x50 0xcf 0x69 0x13;
  e 0x56 0x5b 0x69 0x44 0xae 0xb5 0x02 0x21 0x44;
  e 0x6b 0x8c 0x3e 0x6c 0x94 0xbd 0x60 0x0e 0x04;
  e 0xfe 0x1e 0x31 0xf9 0x14 0x20 0x67 0x8e 0xd9;
  e 0x68 0x3e 0x1e 0x28 0x0e 0xbc 0x6a 0x8b 0x5a;
  e 0x97 0x69 0x41 0xbd 0x21 0x13 0xf0 0x49 0xcd;
  e 0x6f 0x31 0x8c 0xb5 0x8e 0xa1 0x7f 0x19 0x63;
  e 0x4f 0x0e 0x5e 0x4a 0xee 0xb6 0x70 0xcc 0x3f;
  e 0xd5 0x8e 0x56 0xc2 0x69 0xb9 0x65 0xc4 0xe7;
  e 0xad 0x21 0x6b 0xd8 0x3e 0xe1 0x62 0x71 0xa6;
  e 0x22 0x3c 0xfe 0x50 0x31 0x66 0x77 0xe4 0x13;
  e 0x85 0xee 0x5b 0x20 0x3c 0x93 0xe5 0x53 0x99;
  e 0xac 0xf9 0xb5 0x8c 0xcf 0x93 0x3e 0xe3 0x63;
  e 0x06 0x16 0xc2 0x56 0x02 0x66 0x0e 0x83 0x68;
  e 0xa9 0xce 0xd8 0x6b 0x60 0xb9 0x3c 0xc6 0xac;
  e 0x73 0x4c 0x20 0x5b 0xb0 0xbc 0x69 0xde 0x93;
  e 0x86 0x84 0x4a 0x5e 0x10 0xe1 0x8e 0x11 0x8f;
  e 0xb4 0xd4 0x50 0xfe 0x67 0xb6 0x21 0xdc 0x9c;
  e 0xf4 0x44 0xbd 0x41 0x3f 0xa1 0xee 0xd6 0x39;
  e 0x75 0x98 0xaa 0x5c 0x45 0x9f 0xb2 0x52 0x50;
  e 0x40 0x2d 0xf2 0x64 0xa0 0xb7 0x58 0x8a 0x0b;
  e 0x2a 0xc8 0x18 0xd1 0x35 0x47 0xdf 0xef 0x75;
  e 0xa5 0x52 0x0a 0xd9 0xa8 0xdd 0x57 0xe8 0xbb;
  e 0xda 0xa2 0xf5 0xf1 0x3d 0x38 0xd0 0x98 0xd5;
  e 0x72 0x8a 0x25 0x46 0xcd 0x8d 0x2f 0xc8 0x7b;
  e 0x17 0xe8 0xc7 0x0c 0x5f 0xfa 0x32 0x2d 0x52;
  e 0x05 0xef 0x5d 0x9e 0xd7 0xfd 0xaf 0xa2 0x69;
  e 0x50 0xdc 0xe9 0xa3 0x1e 0xad 0x5f 0xc1 0xa2;
  e 0x20 0xde 0x81 0xa9 0x6b 0x97 0x3d 0x59 0xda;
  e 0xb5 0xe3 0xa6 0x86 0x5e 0x68 0x35 0xec 0x5f].
Definition B_3 : list aff := [
  e 0xc2 0x83 0x23 0x73 0x5b 0x4f 0x45 0x03 0x17;
  e 0xbd 0xd6 0x01 0xb4 0xfe 0x85 0xa0 0x51 0x70;
  e 0x4a 0x11 0x2c 0xf4 0x41 0xd5 0xcd 0x91 0xc0;
  e 0xd8 0xc6 0x6e 0xac 0x8c 0x22 0xd7 0xdb 0x0c;
  e 0x28 0x76 0xbb 0x06 0x56 0x6f 0xa8 0x79 0x8c;
  e 0xb1 0x8d 0x9f 0x59 0x5a 0x44 0xec 0xf4 0x4e;
  e 0xf3 0xfd 0xfa 0x79 0xb8 0xf9 0x59 0xac 0x40;
  e 0xbe 0x9f 0x8d 0x51 0xc0 0x4c 0x79 0x73 0x45;
  e 0x09 0x38 0xb7 0xc1 0x90 0xce 0x03 0xa9 0x07;
  e 0x89 0xb7 0x38 0xdb 0x82 0xd4 0x91 0xb4 0xe5;
  e 0x33 0xdd 0x47 0x91 0x7d 0x16 0xc1 0x06 0x68;
  e 0x2e 0x47 0xdd 0x03 0x7a 0x84 0xdb 0x86 0x1d;
  e 0x74 0xfa 0xfd 0xec 0x37 0x6c 0x51 0xa3 0xdc;
  e 0x6c 0x19 0x35 0x4f 0x70 0x6f 0xa8 0xfa 0x45;
  e 0xce 0xe4 0x5f 0x68 0x6a 0x22 0xd7 0x38 0x44;
  e 0x16 0xcc 0xcd 0x97 0xf0 0x4f 0x45 0xdd 0xff;
  e 0x44 0x53 0x3d 0xad 0x62 0x85 0xa0 0x8d 0x51;
  e 0x4c 0x49 0xa0 0x22 0x77 0x97 0x3d 0x9f 0x63;
  e 0xd4 0x71 0xd7 0x6f 0x7f 0xad 0x5f 0xb7 0x23;
  e 0xf9 0x8b 0xa8 0xd5 0x65 0x68 0x35 0xfd 0xb7;
  e 0x84 0xc4 0x45 0x85 0xe5 0xd5 0xcd 0x47 0x58;
  e 0xe6 0xb1 0x53 0xa9 0x27 0x36 0x6d 0x8c 0x12;
  e 0x26 0x09 0xe4 0xa3 0xca 0x14 0xea 0x56 0x0c;
  e 0x61 0xbe 0x49 0xb4 0xba 0x39 0x78 0x1e 0x9b;
  e 0x9c 0x33 0xcc 0xf4 0xc5 0xb3 0xed 0xfe 0x89;
  e 0x1c 0x2e 0xc4 0x73 0x4d 0xae 0xf8 0x6b 0x10;
  e 0xa4 0x74 0x19 0x86 0xa7 0x7b 0xf7 0x41 0x59;
  e 0x3b 0x89 0x71 0xac 0x42 0x94 0xff 0x5e 0x60;
  e 0xab 0xf3 0x8b 0x06 0x3a 0xfc 0xe2 0x5b 0x25;
  e 0xf1 0x68 0xff 0x09 0x0b 0xbf 0x71 0x75 0xa0;
  e 0x9e 0xd5 0xf7 0xf3 0x43 0xe0 0x19 0xda 0x6b;
  e 0x64 0x6f 0xea 0x89 0x99 0x30 0xe4 0x72 0x3e;
  e 0x0c 0x4f 0xe2 0x74 0x4b 0xe7 0x8b 0x40 0xb8;
  e 0xd9 0x97 0xf8 0x33 0x54 0xd2 0xc4 0x17 0xe2;
  e 0x5c 0x22 0x6d 0xbe 0xeb 0x1f 0x53 0xa5 0x87;
  e 0x46 0xad 0x78 0xb1 0x7e 0x0d 0x49 0x2a 0xce;
  e 0xd1 0x85 0xed 0x2e 0x4e 0x48 0xcc 0x05 0xe6;
  e 0x4f 0x69 0xf0 0x44 0x3a 0x29 0xe5 0xb3 0x65;
  e 0x85 0x21 0x62 0xce 0xc5 0x24 0x77 0x36 0x8b;
  e 0x68 0x8e 0x65 0x16 0x42 0xfb 0x70 0xfc 0x56;
  e 0xd5 0xee 0xe5 0x4c 0xa7 0x34 0xf0 0xae 0xad;
  e 0x22 0x3e 0x6a 0x6c 0x27 0x9b 0x7f 0x14 0x42;
  e 0xad 0x31 0x7f 0xf9 0xba 0x1b 0x6a 0x94 0xdf;
  e 0x97 0x3c 0x77 0xd4 0x4d 0x2b 0x62 0x39 0x83;
  e 0x6f 0x0e 0x70 0x84 0xca 0x7c 0x65 0x7b 0x0b;
  e 0x89 0xf9 0x90 0x6c 0x4a 0xd3 0x67 0x86 0xc5;
  e 0x2e 0x4c 0x7d 0x44 0xd8 0x96 0x10 0xa9 0x2d;
  e 0x09 0x6c 0x82 0xf9 0xc2 0xc9 0x60 0x06 0x1c;
  e 0xf3 0x16 0x37 0x84 0x20 0x63 0xcf 0x73 0x67;
  e 0x74 0x84 0xb8 0x16 0xbd 0xf6 0x55 0xf4 0x98;
  e 0xbe 0xd4 0x5a 0xce 0x28 0xc3 0xb0 0xa3 0x22;
  e 0xb1 0xce 0xc0 0xd4 0xb5 0xcb 0x3f 0xac 0x08;
  e 0x33 0x44 0x7a 0x4c 0x50 0x04 0x02 0xb4 0x21;
  e 0xa7 0x04 0xfd 0x8d 0x71 0xe8 0x96 0x17 0x58;
  e 0x4d 0xcb 0xdd 0x38 0x8b 0xc8 0xc3 0x2a 0xca;
  e 0x42 0xf6 0x38 0x47 0x53 0x2d 0x63 0x40 0xe4;
  e 0x3a 0x96 0xfa 0x9f 0xe4 0xef 0x04 0x05 0x92;
  e 0xba 0xc9 0x8d 0xfa 0xcc 0x98 0xd3 0x75 0x10;
  e 0xc5 0xc3 0x47 0xb7 0x19 0x52 0xcb 0xa5 0x77;
  e 0x27 0xd3 0x9f 0xfd 0xc4 0x8a 0xc9 0x72 0x90;
  e 0xca 0x63 0xb7 0xdd 0x49 0xa2 0xf6 0xda 0x13;
  e 0x4a 0x23 0x97 0xcd 0x41 0xa6 0xf4 0xdb 0xc0;
  e 0x50 0x6e 0x68 0x5f 0x1e 0x01 0xa3 0x91 0xf4;
  e 0x28 0xa6 0xd5 0xa8 0x56 0xe9 0x06 0x51 0xcc].
Definition B_4 : list aff := [
  e 0xb5 0xbb 0x4f 0x35 0x5e 0x6e 0x86 0x59 0x7a;
  e 0xd8 0xe9 0x6f 0xd7 0x8c 0x81 0xac 0x03 0x29;
  e 0x20 0x01 0xad 0x3d 0x6b 0x23 0xa9 0x79 0x9a;
  e 0xbd 0x81 0x22 0xa0 0xfe 0x2c 0xb4 0xec 0x63;
  e 0xc2 0x2c 0x85 0x45 0x5b 0xbb 0x73 0xc1 0x52;
  e 0xf9 0x4a 0xb8 0x5e 0xe0 0x3f 0xc2 0x44 0xc4;
  e 0x4c 0xd8 0xc0 0x6b 0x1f 0xcf 0x50 0xf9 0x0b;
  e 0x84 0xbd 0x7a 0x41 0x48 0x67 0x20 0xd4 0x3e;
  e 0x16 0x20 0x7d 0x5b 0xd2 0x60 0xbd 0xce 0xf4;
  e 0xd4 0x28 0x82 0x1e 0x30 0x02 0xb5 0x16 0x5d;
  e 0x6c 0xc2 0x37 0x56 0xe7 0xb0 0x4a 0x4c 0x22;
  e 0x44 0x50 0x5a 0xfe 0x0d 0x55 0xd8 0x6c 0x7c;
  e 0xce 0xb5 0x90 0x8c 0xbf 0x10 0x28 0x84 0x06;
  e 0xac 0x37 0xb8 0x75 0xb2 0xf5 0x16 0xb3 0x0b;
  e 0x06 0x7a 0x7d 0x40 0x58 0xc7 0x44 0x36 0x21;
  e 0xb4 0x90 0x82 0x2a 0xdf 0x25 0xf9 0xfc 0xce;
  e 0xa9 0x82 0x90 0xa5 0x57 0xaa 0x6c 0x7b 0xd1;
  e 0x86 0x7d 0x7a 0xda 0xd0 0x5d 0x4c 0x39 0xbd;
  e 0xa3 0xb8 0x37 0x72 0x2f 0xf2 0x84 0xae 0x61;
  e 0x73 0x5a 0xc0 0x17 0x32 0x0a 0xd4 0x94 0x85;
  e 0xf4 0xc0 0x5a 0x05 0xaf 0x18 0xce 0x14 0x6c;
  e 0x22 0xfa 0x51 0x8d 0x05 0x69 0xbc 0x33 0x7a;
  e 0xad 0xfd 0x59 0x9f 0x17 0xee 0xa1 0x2e 0xfe;
  e 0x6f 0x47 0xdb 0x38 0xa5 0x21 0xb6 0xb1 0x24;
  e 0x4f 0x8d 0xec 0xfd 0x75 0x31 0x13 0x89 0x59;
  e 0x68 0xdd 0xc1 0xb7 0x2a 0x3c 0xb9 0xbe 0x7c;
  e 0x85 0x38 0x03 0xdd 0x40 0x8e 0xe1 0xf3 0x98;
  e 0xd5 0x9f 0x79 0xfa 0x72 0x3e 0x93 0x09 0xfa;
  e 0x97 0xb7 0x91 0x47 0xda 0x0e 0x66 0x74 0xe7;
  e 0xfd 0x33 0x80 0xcd 0x3f 0x22 0xc4 0x40 0xae;
  e 0xfa 0x2e 0x80 0x45 0xb0 0xad 0xcc 0xda 0xb3;
  e 0xb7 0xf3 0x0f 0xa8 0x02 0x85 0x19 0x75 0x8a;
  e 0x38 0x74 0x0f 0x35 0x10 0x97 0x8b 0x72 0x58;
  e 0xdd 0xb1 0x87 0x3d 0x60 0x6f 0x49 0x05 0xbe;
  e 0x47 0xbe 0x87 0xa0 0x67 0x68 0x53 0x17 0x2e;
  e 0x9f 0x89 0x1d 0xd7 0xcf 0x4f 0xe4 0x2a 0xc6;
  e 0x8d 0x09 0x1d 0x5f 0x55 0xd5 0x71 0xa5 0x99;
  e 0x35 0x37 0x16 0x5e 0x4c 0xb9 0x65 0xf8 0x8e;
  e 0xa0 0xc0 0xce 0xfe 0xf9 0xe1 0x62 0xff 0x76;
  e 0xcd 0x7d 0x4c 0x41 0xce 0x93 0xe5 0x6d 0x39;
  e 0x45 0x7a 0x44 0x5b 0xd4 0x13 0xf0 0x78 0xbd;
  e 0x5f 0x90 0xf9 0x1e 0x84 0xa1 0x7f 0xf7 0xda;
  e 0x3d 0x5a 0xd4 0x6b 0x6c 0x66 0x77 0xea 0xaa;
  e 0xd7 0x82 0x6c 0x8c 0x16 0xbc 0x6a 0xe2 0x62;
  e 0xa8 0xb8 0x84 0x56 0x44 0xb6 0x70 0xed 0x6e;
  e 0xca 0x73 0xf8 0x85 0xe1 0x5f 0xcc 0x9e 0x7a;
  e 0x4d 0xac 0xff 0x6f 0xb6 0x45 0xe4 0x46 0xab;
  e 0x3a 0xa9 0x6d 0xad 0xa1 0xa8 0x49 0xd1 0xd7;
  e 0xa7 0xb4 0x78 0x22 0xbc 0x35 0x53 0xd9 0x43;
  e 0x27 0x86 0xf7 0x4f 0x13 0x3d 0x8b 0x64 0xe8;
  e 0xc5 0xa3 0xea 0x68 0xb9 0xcd 0x71 0x5c 0x2d;
  e 0xba 0x06 0xe2 0xd5 0x93 0xa0 0x19 0xf1 0x37;
  e 0x42 0xf4 0xed 0x97 0x66 0xd7 0xc4 0x0c 0xb7;
  e 0xd4 0x12 0x4e 0x4d 0xe4 0xfa 0x32 0x26 0x52;
  e 0x6c 0x8f 0x7e 0x27 0x8b 0xdd 0x57 0xab 0x3a;
  e 0x16 0x07 0x99 0x42 0xc4 0x9f 0xb2 0x1c 0xf0;
  e 0x44 0x9a 0x43 0x3a 0x49 0xb7 0x58 0x61 0x33;
  e 0xf9 0x8f 0xeb 0xba 0x19 0x47 0xdf 0xa4 0x84;
  e 0x4c 0x9a 0x4b 0xa7 0x53 0x38 0xd0 0xe6 0x24;
  e 0x84 0x07 0x0b 0xca 0xcc 0x8d 0x2f 0x9c 0x43;
  e 0xce 0x12 0x54 0xc5 0x71 0xfd 0xaf 0x3b 0x48;
  e 0xec 0x2c 0xcc 0xf8 0x62 0x3d 0x97 0x02 0xc2;
  e 0xc1 0xbb 0x8b 0xf7 0xf0 0xcd 0xd5 0xcf 0x6f;
  e 0x51 0xe9 0xe4 0xff 0x70 0x35 0x68 0x60 0x00].
Definition B_5 : list aff := [
  e 0x91 0x01 0x49 0x6d 0x7f 0xd7 0x22 0xb0 0x15;
  e 0x03 0x81 0x53 0x78 0x6a 0x5f 0xad 0x3f 0xd2;
  e 0xdb 0xa6 0x19 0xe2 0xe5 0x45 0x4f 0x55 0x48;
  e 0x79 0x23 0xc4 0xed 0x77 0xa0 0x85 0x10 0x46;
  e 0x59 0x6e 0x71 0xea 0x65 0xa8 0x6f 0x67 0x64;
  e 0xd1 0xa8 0xf7 0x35 0x9f 0xb1 0x06 0x4b 0xb4;
  e 0x0c 0xd7 0xea 0x5f 0x47 0x33 0xac 0x0b 0xbd;
  e 0xd9 0x35 0xe2 0xa8 0x8d 0xbe 0x86 0x43 0xe6;
  e 0x9e 0x5f 0xff 0xd7 0xdd 0x2e 0xa3 0x99 0x64;
  e 0xf1 0xa0 0x6d 0x3d 0xfa 0xf3 0xb4 0x7e 0x96;
  e 0x46 0x45 0xed 0xcd 0x38 0x89 0x73 0x54 0xeb;
  e 0x5c 0xcd 0xf8 0x45 0xb7 0x09 0xf4 0x4e 0xb5;
  e 0x64 0x3d 0x78 0xa0 0xfd 0x74 0xa9 0xeb 0x43;
  e 0xbc 0x83 0xf8 0xf4 0xce 0xa0 0x85 0xf0 0xae;
  e 0xe1 0xe3 0xf7 0x06 0x44 0x45 0x4f 0x65 0x69;
  e 0xb9 0xde 0x6d 0xb4 0xf9 0x5f 0xad 0x77 0x53;
  e 0x13 0xdc 0xea 0xac 0x16 0x35 0x68 0x7f 0x21;
  e 0x93 0xc6 0xff 0xa3 0x84 0xa8 0x6f 0x6a 0xad;
  e 0x66 0x76 0xe2 0x86 0x4c 0xcd 0xd5 0x70 0xbf;
  e 0xa1 0x11 0xed 0x73 0xd4 0x3d 0x97 0xe5 0xfa;
  e 0xb6 0xd6 0x78 0xa9 0x6c 0xd7 0x22 0x62 0x5d;
  e 0x86 0xbd 0x92 0x4c 0xd0 0x4d 0xda 0xbf 0xab;
  e 0xb4 0x28 0x1a 0xf9 0xdf 0x42 0x2a 0x48 0xd8;
  e 0xf4 0x50 0x08 0xce 0xaf 0x27 0x05 0xe0 0x49;
  e 0x73 0xd8 0x08 0xd4 0x32 0xba 0x17 0xe7 0x85;
  e 0xa3 0xc2 0x95 0x84 0x2f 0xa7 0x72 0x0d 0x24;
  e 0xa9 0xb5 0x1a 0x6c 0x57 0xca 0xa5 0xd2 0x87;
  e 0xac 0x4a 0x95 0x16 0xb2 0x3a 0x75 0x1f 0x78;
  e 0x06 0x20 0x92 0x44 0x58 0xc5 0x40 0x30 0x64;
  e 0x38 0x40 0x44 0x41 0xbe 0x1b 0x69 0x9a 0x3e;
  e 0xfd 0x17 0xd4 0xfe 0x09 0x7c 0x3c 0x12 0xb9;
  e 0xb7 0xda 0x4c 0x5b 0xb1 0x9b 0xee 0x9a 0xf8;
  e 0xfa 0x05 0xce 0x6b 0x89 0xfb 0x21 0x12 0xa5;
  e 0xdd 0x2a 0xf9 0x8c 0x74 0x34 0x31 0x8f 0x86;
  e 0x9f 0x72 0x84 0x5e 0x33 0x24 0x0e 0x07 0xa9;
  e 0x8d 0x75 0x16 0x56 0x2e 0x2b 0x8e 0x07 0x8b;
  e 0x47 0xa5 0x6c 0x1e 0xf3 0x29 0x3e 0x8f 0x7e;
  e 0xd8 0x30 0xd2 0xae 0x54 0x83 0x0d 0x8f 0x14;
  e 0x20 0x0d 0xe7 0xfc 0x4b 0x76 0x48 0x12 0x8d;
  e 0xb5 0xe7 0x1f 0x36 0xeb 0xde 0x30 0x07 0x71;
  e 0x4a 0xd2 0xbf 0x94 0x0b 0xc6 0xe7 0x9a 0xd6;
  e 0x50 0xbf 0x48 0xb3 0x4e 0x11 0x1f 0x8f 0xf0;
  e 0x28 0xe0 0x0d 0x39 0x7e 0xd6 0xbf 0x07 0xfb;
  e 0xc2 0x48 0x30 0x14 0x99 0xdc 0xe0 0x9a 0x2e;
  e 0xbd 0x1f 0xe0 0x7b 0x43 0xe3 0xd2 0x12 0x1b;
  e 0x72 0x33 0x11 0x73 0x69 0x76 0xcc 0xcb 0x17;
  e 0x75 0x2e 0x83 0xf4 0xee 0xe3 0xc4 0xc3 0x2b;
  e 0x17 0x09 0xdc 0xac 0x3e 0xde 0xe4 0xf6 0x23;
  e 0x05 0x89 0xc6 0xa3 0x31 0xd6 0x71 0x63 0x60;
  e 0xa5 0xf3 0x76 0x86 0x8e 0xc6 0x8b 0x04 0xb5;
  e 0x2a 0x74 0xe3 0x06 0x0e 0xdc 0x19 0x96 0x4e;
  e 0xda 0xb1 0xde 0xb4 0x21 0x11 0x53 0xc9 0x9a;
  e 0x40 0xbe 0xd6 0xa9 0x3c 0x83 0x49 0xd3 0x1e;
  e 0xec 0x08 0xfe 0xd4 0x6f 0x58 0x5a 0x29 0xc8;
  e 0xc1 0x92 0x5b 0x4c 0x22 0xb2 0x7d 0xfb 0x0c;
  e 0x51 0x95 0x56 0x16 0x97 0x57 0x37 0x9b 0x31;
  e 0x91 0x1a 0x1e 0x6c 0x4f 0x32 0x82 0x2b 0x4b;
  e 0x03 0x1a 0x8c 0xf9 0xd5 0xaf 0x90 0x24 0xf7;
  e 0xdb 0x92 0x41 0x44 0xad 0x2f 0x7a 0x7c 0x01;
  e 0x79 0x08 0x6b 0xce 0x68 0xd0 0xc0 0x34 0x6e;
  e 0x59 0x95 0x5e 0x84 0x85 0xdf 0xb8 0x1b 0x26;
  e 0x70 0xcd 0x73 0x23 0xda 0xe3 0xc4 0xe1 0x92;
  e 0x7f 0x35 0x06 0xbb 0x75 0xc6 0x8b 0x93 0xfd;
  e 0x77 0x5f 0xac 0x6e 0x2a 0xd6 0x71 0xb6 0xf8].
Definition B_6 : list aff := [
  e 0x65 0x45 0xf4 0x2c 0x40 0x76 0xcc 0x66 0xff;
  e 0xe5 0x3d 0xb4 0x01 0x17 0x83 0x49 0xbc 0x4f;
  e 0x62 0xd7 0xa3 0xe9 0xa5 0xde 0xe4 0xb9 0xa2;
  e 0x6a 0xa8 0x86 0xa6 0x72 0xdc 0x19 0x13 0x9e;
  e 0x9a 0x9b 0x0b 0x2f 0x87 0x7d 0xb2 0xdd 0x5d;
  e 0x12 0x7c 0x4b 0xd0 0x1d 0x5a 0x58 0x8d 0xe7;
  e 0x07 0x24 0x7e 0x57 0x80 0xb8 0xdf 0xfd 0xf9;
  e 0x07 0x2b 0xeb 0xdf 0x80 0x37 0x57 0xfa 0xcf;
  e 0x12 0xfb 0x43 0x58 0x1d 0xc0 0xd0 0x9f 0xb1;
  e 0x9a 0x1b 0x99 0xb2 0x87 0x7a 0x2f 0x47 0x2e;
  e 0x8f 0x29 0x54 0xaf 0x0f 0x82 0x32 0xb7 0x03;
  e 0x8f 0x34 0x4e 0x32 0x0f 0x90 0xaf 0x38 0x10;
  e 0xf6 0x5b 0x92 0xe5 0x01 0x1b 0x69 0x26 0xee;
  e 0x63 0x41 0x92 0xf0 0x81 0x9b 0xee 0x3b 0x60;
  e 0xc9 0x5e 0x95 0x70 0x23 0x2b 0x8e 0xe6 0x32;
  e 0xd3 0x56 0x95 0x65 0x2c 0x24 0x0e 0x61 0x31;
  e 0x04 0x6b 0x08 0x62 0xe9 0x7c 0x3c 0xab 0x98;
  e 0x96 0xfe 0x08 0x77 0x6e 0xfb 0x21 0xa4 0x54;
  e 0xcb 0x1e 0x1a 0x6a 0xa6 0x34 0x31 0x9c 0xd7;
  e 0xc3 0x8c 0x1a 0x7f 0xbb 0x29 0x3e 0x1c 0x96;
  e 0xaa 0x81 0xb4 0x49 0x1c 0x30 0xde 0x28 0xdf;
  e 0x18 0x2c 0x73 0xc4 0xa4 0x1f 0x11 0xd8 0x5e;
  e 0xf2 0xe9 0xac 0x71 0x61 0xe0 0xdc 0x4a 0xa1;
  e 0xf5 0x6e 0xa3 0xe4 0xe6 0xe7 0xc6 0xc2 0xf8;
  e 0x0a 0x23 0xf4 0xcc 0xab 0x0d 0x83 0x50 0x7d;
  e 0x25 0x01 0xa9 0x53 0x9c 0xbf 0xd6 0xb5 0x12;
  e 0xc7 0xbb 0x86 0x19 0x26 0x48 0x76 0xbd 0xdc;
  e 0x5d 0xa6 0x06 0x8b 0x3b 0xd2 0xe3 0x20 0x6b;
  e 0xbf 0x9a 0xa2 0x7c 0x1b 0xc2 0x64 0x68 0x9c;
  e 0x30 0x9a 0x2d 0xfb 0x9b 0x4a 0xf1 0x6f 0x22;
  e 0xe0 0x12 0xef 0x29 0x7c 0x20 0x0c 0xd5 0xc3;
  e 0x48 0x8f 0xc8 0x2b 0x29 0xd8 0xd9 0x85 0x1f;
  e 0x1f 0x07 0x98 0x1b 0x24 0x28 0x46 0x22 0x42;
  e 0xd2 0x8f 0x52 0x24 0x34 0x50 0xd1 0x97 0xbb;
  e 0x0d 0x07 0x8a 0x9b 0x2b 0xb5 0x5c 0xad 0x57;
  e 0xe7 0x12 0xe8 0x34 0xfb 0xbd 0x9e 0x4f 0xcc;
  e 0x3e 0x74 0xf7 0xbb 0x84 0xff 0xf3 0xa1 0xfd;
  e 0x0e 0x2e 0xf8 0x2c 0x4c 0xe2 0x33 0xb9 0x3c;
  e 0x21 0x09 0xea 0x6e 0x6c 0x78 0x89 0x66 0x3b;
  e 0x3c 0x89 0xff 0xe9 0xf9 0x6d 0x09 0xe1 0x60;
  e 0x8e 0x33 0xed 0x23 0x44 0xf7 0x2e 0xb6 0xbc;
  e 0x31 0xf3 0xe2 0xa6 0x16 0xea 0x74 0xbc 0xb7;
  e 0x69 0xb1 0x6d 0x01 0xce 0xf8 0xbe 0x93 0x8d;
  e 0xee 0xbe 0x78 0x81 0xd4 0xed 0xb1 0x13 0x1c;
  e 0xbf 0x57 0x9c 0x7e 0xa4 0xd8 0xd9 0x73 0xcf;
  e 0x0d 0xaf 0xab 0x54 0x26 0xbd 0x9e 0x86 0x3d;
  e 0xe0 0xb2 0x61 0x99 0x9c 0xb5 0x5c 0xa9 0x87;
  e 0xd2 0x58 0x3b 0x43 0xe6 0xc2 0x64 0xa3 0xec;
  e 0x48 0xd0 0x26 0x4b 0x61 0x4a 0xf1 0xac 0x22;
  e 0x1f 0x32 0xa4 0x4e 0x3b 0x20 0x0c 0x06 0x7a;
  e 0x30 0xdf 0x1c 0xeb 0xab 0x50 0xd1 0xf4 0x3a;
  e 0xe7 0x2f 0xe6 0x0b 0x1c 0x28 0x46 0xb4 0xfb;
  e 0x02 0x39 0x30 0x1f 0x58 0x86 0xae 0xc5 0x62;
  e 0x55 0xb3 0x0d 0xd2 0x2f 0xac 0xfc 0xa7 0x74;
  e 0x3f 0x94 0xe0 0x30 0xaf 0x73 0x39 0x27 0x4b;
  e 0x67 0x7b 0x48 0xe7 0xdf 0xa9 0x14 0x42 0x79;
  e 0xb0 0x14 0xe7 0xbf 0x32 0xf4 0x36 0xba 0x96;
  e 0x10 0x36 0xbf 0x0d 0xd0 0x06 0xb3 0x4d 0x4f;
  e 0x60 0xfc 0xd2 0xe0 0x57 0xb4 0x94 0xca 0x12;
  e 0xcf 0xae 0x1f 0x48 0xb2 0xa3 0x7b 0x3a 0xef;
  e 0x95 0x61 0x2f 0x99 0x80 0xfa 0x0b 0xeb 0x4b;
  e 0x1a 0x1c 0x57 0xeb 0x0f 0x38 0x7e 0x4e 0x95;
  e 0x95 0xe6 0xb2 0x0b 0x80 0xfd 0x99 0x7e 0x38;
  e 0x1a 0x9c 0xdf 0x7e 0x0f 0xb7 0xeb 0x54 0xe3].
Definition B_7 : list aff := [
  e 0x08 0xa4 0xaf 0x4e 0x1d 0x8d 0x54 0x4b 0xb2;
  e 0x92 0x26 0x58 0x4b 0x87 0xdd 0x43 0x0b 0x09;
  e 0x92 0x3b 0xd0 0x43 0x87 0x47 0x4b 0x99 0x2c;
  e 0x08 0xab 0x32 0x54 0x1d 0x9f 0x4e 0x43 0x92;
  e 0x5a 0x6a 0x28 0x7f 0xb3 0x5b 0x90 0xcf 0x53;
  e 0xc0 0x7f 0xb5 0x6a 0xae 0x41 0x82 0x55 0xf2;
  e 0x82 0x65 0xc2 0x70 0x39 0x6b 0xb8 0x10 0xf6;
  e 0x7d 0x62 0xd8 0x77 0xfc 0x5e 0x5a 0x67 0x7c;
  e 0x37 0xe5 0x20 0xf0 0x14 0x8c 0x7a 0x3f 0x0c;
  e 0x90 0x70 0x4a 0x65 0x36 0xfe 0x37 0x02 0xd0;
  e 0x7a 0x77 0x50 0x62 0x7b 0x56 0xc0 0x60 0x56;
  e 0xb8 0xf0 0xbd 0xe5 0x94 0x1e 0x7d 0xb0 0xa1;
  e 0x5d 0xf1 0xa7 0x2d 0x68 0x6b 0x4b 0x04 0x6d;
  e 0xaa 0xd9 0x27 0xc8 0x97 0x56 0x7e 0xd3 0xd4;
  e 0xc7 0x64 0x3a 0xa2 0x6f 0xfe 0x43 0x96 0x98;
  e 0x0a 0x0c 0x4d 0xef 0x4f 0x1e 0x4e 0xcb 0x5b;
  e 0x18 0x9e 0xc5 0xe8 0xd5 0x8c 0x54 0xc3 0x37;
  e 0xf2 0x46 0xca 0x98 0xad 0x41 0x0b 0x63 0xf2;
  e 0xf5 0x5c 0x42 0x8a 0x22 0x5b 0x99 0xf6 0xd9;
  e 0x25 0xd1 0xba 0x52 0x85 0x5e 0xeb 0xc9 0x66;
  e 0xe8 0xf5 0xfb 0x9a 0x6e 0xd8 0xa2 0x04 0xe7;
  e 0xef 0xf2 0x7c 0x9a 0xe9 0x50 0x2d 0x96 0xc8;
  e 0xa2 0x25 0x1b 0x07 0x01 0xbd 0x8a 0x63 0xbe;
  e 0x8a 0x0a 0x2b 0x8f 0x23 0xc2 0x52 0xd3 0x84;
  e 0x2d 0xaa 0x9b 0x07 0x81 0x20 0x98 0xf6 0x53;
  e 0xc8 0xc7 0x29 0x12 0xbb 0x28 0xe8 0xcb 0xf3;
  e 0x98 0x18 0x24 0x8f 0x2c 0x4a 0xc8 0xc9 0x82;
  e 0x52 0x5d 0x34 0x12 0xa6 0xb5 0xef 0xc3 0x37;
  e 0x8e 0x15 0x14 0x30 0xca 0xe9 0xb3 0xf2 0xef;
  e 0x0e 0x15 0x94 0xbf 0x42 0x6e 0xae 0xf5 0x53;
  e 0xee 0x15 0xfc 0xe7 0x3a 0xbb 0x39 0xc7 0x73;
  e 0x31 0x15 0x36 0x1f 0x27 0x81 0xfc 0xaa 0xc1;
  e 0x21 0x15 0xae 0xd2 0x4d 0x23 0x14 0x0a 0x50;
  e 0x69 0x15 0x7b 0xe0 0xa7 0xa6 0x36 0x5d 0xda;
  e 0x3e 0x15 0x39 0x0d 0xba 0x01 0x7b 0x25 0xce;
  e 0x3c 0x15 0xb3 0x48 0xc5 0x2c 0x94 0x18 0x4a;
  e 0x32 0xa3 0x1d 0xe4 0xc3 0xcc 0x5f 0xaa 0x93;
  e 0xb2 0x73 0x80 0xc4 0x63 0xe4 0x45 0x5d 0x7a;
  e 0xd0 0xa9 0x87 0x53 0x96 0x8b 0x3d 0x18 0x7e;
  e 0x58 0xb4 0x87 0x49 0x04 0x19 0xa0 0x0a 0xf0;
  e 0x2f 0xf4 0x80 0xcc 0xf6 0x71 0xcd 0xc7 0xb5;
  e 0xdf 0x86 0x0f 0x19 0xd3 0x53 0x35 0xf2 0x5b;
  e 0x57 0x06 0x0f 0x8b 0xc9 0x49 0xa8 0xf5 0x89;
  e 0xaf 0xac 0x1d 0x71 0xcb 0xc4 0xd7 0x25 0x00;
  e 0x4e 0xc6 0xe4 0x1d 0x63 0x2c 0xff 0x2f 0x99;
  e 0x99 0x11 0xc4 0x80 0xcb 0xe9 0xed 0x32 0x45;
  e 0x7e 0xe3 0x8b 0x0f 0x96 0x01 0xf7 0x58 0x7d;
  e 0xeb 0x76 0x19 0x0f 0x04 0x81 0xe2 0xd0 0x90;
  e 0x4b 0xd6 0x53 0x87 0xd3 0xbb 0x78 0x57 0x4b;
  e 0x0b 0x83 0xcc 0x80 0xc3 0x6e 0xf8 0xaf 0x80;
  e 0x43 0xde 0x49 0x87 0xc9 0xa6 0x6d 0xdf 0x4a;
  e 0x54 0xdc 0x71 0x1d 0xf6 0x23 0xea 0xb2 0xb0;
  e 0xb8 0xf4 0x73 0x11 0x20 0x19 0x85 0x63 0x92;
  e 0x90 0x86 0x06 0xe3 0xc2 0x71 0xd5 0xc9 0xfe;
  e 0x7a 0xb4 0xa9 0xd6 0xd8 0xcc 0xad 0x96 0x5a;
  e 0x37 0x73 0xf4 0x83 0xbd 0x8b 0x97 0xf6 0x6f;
  e 0x82 0x06 0x86 0x76 0x4a 0xe4 0x4f 0xd3 0x80;
  e 0x5a 0xa3 0xac 0xdc 0xb5 0x49 0x6f 0xcb 0x29;
  e 0x7d 0xa9 0xb4 0xde 0x50 0xc4 0x22 0x04 0x51;
  e 0xc0 0xac 0xa3 0xc6 0x28 0x53 0x68 0xc3 0xa1;
  e 0x49 0xb0 0xc0 0x3c 0xa5 0xdb 0x17 0xea 0xc4;
  e 0x19 0x55 0x37 0x0e 0x40 0x03 0x72 0xed 0xa8;
  e 0x8b 0xcf 0xb8 0x8e 0xda 0x91 0x75 0xf8 0x54;
  e 0xcc 0x02 0x7d 0x69 0x17 0x59 0x40 0x78 0xbd].
Definition B_8 : list aff := [
  e 0xc4 0x10 0x7a 0xee 0x05 0x51 0xda 0x6d 0xaf;
  e 0x71 0x67 0x82 0x31 0x72 0x79 0x2a 0xf7 0x1c;
  e 0xe4 0x60 0x90 0x3e 0x75 0xec 0xa5 0xe2 0x9a;
  e 0x53 0x3f 0x5a 0x21 0x2a 0xc1 0x05 0xff 0xac;
  e 0x63 0x86 0x35 0x76 0x7d 0x2e 0xf7 0x75 0x4c;
  e 0xf6 0x06 0xa8 0xe3 0x7a 0x33 0xe2 0x72 0xbc;
  e 0x96 0xf4 0xcd 0x83 0xc0 0xb1 0xed 0xda 0x25;
  e 0xcb 0xb4 0xa0 0xde 0x90 0x89 0x78 0x05 0xf2;
  e 0xc3 0xa9 0x3d 0xd6 0x82 0x09 0x6d 0x17 0xd6;
  e 0xd3 0xa3 0x5f 0xc6 0xb8 0x74 0xea 0x2a 0x00;
  e 0x04 0x73 0x45 0x11 0x5a 0xbe 0xf8 0x40 0xdc;
  e 0xcf 0x83 0x2e 0x11 0x7d 0x06 0xed 0x47 0xbc;
  e 0x55 0x11 0x33 0x83 0x7a 0x86 0xf8 0xdd 0x69;
  e 0xb0 0xdc 0x09 0xc6 0x82 0xb4 0xff 0x38 0xa0;
  e 0x3f 0xc6 0x89 0xdc 0x90 0xa9 0xea 0xb7 0x01;
  e 0x67 0xe3 0x74 0x76 0xb8 0xac 0xe2 0xfa 0x45;
  e 0x60 0x76 0xf3 0xe3 0x37 0xa3 0xf7 0xfd 0x3d;
  e 0x10 0xde 0xb1 0xd6 0xc0 0x73 0x78 0x8d 0x73;
  e 0x02 0xd6 0xbe 0xde 0x5a 0xf4 0x6d 0x9f 0x7f;
  e 0xd0 0xd7 0xc6 0x1d 0x46 0x7b 0xa3 0x5e 0x30;
  e 0x57 0x45 0x83 0x80 0x9e 0x36 0xf4 0x6b 0xe8;
  e 0xdf 0xcd 0x11 0x80 0x0c 0x39 0x73 0xfe 0x03;
  e 0xb2 0x3d 0xde 0x87 0xd1 0x94 0xb4 0x8c 0x42;
  e 0x2f 0xa0 0xd6 0x87 0xd9 0x14 0xa9 0x1e 0x87;
  e 0x32 0xa8 0x76 0x0f 0xf1 0xae 0x86 0x5b 0xb3;
  e 0xaf 0x35 0xe3 0x0f 0x64 0xb3 0x06 0x41 0x59;
  e 0x58 0x5f 0xdc 0x1d 0x5c 0xfc 0xac 0x56 0xf4;
  e 0x15 0xba 0xd9 0x52 0x12 0xb0 0xc8 0xed 0x82;
  e 0x15 0x3a 0xf1 0xa2 0x07 0xcf 0x2d 0xea 0xd0;
  e 0x15 0x27 0xd1 0xc8 0x12 0x3f 0x52 0xf8 0xd4;
  e 0x15 0xca 0x5c 0x98 0x8f 0x60 0x8a 0x78 0x9f;
  e 0x15 0x42 0x46 0x8a 0x8f 0x67 0x98 0x6d 0xdf;
  e 0x15 0x4d 0x9e 0xef 0x9a 0x10 0xe8 0xe2 0xfe;
  e 0x15 0xa7 0x64 0x2d 0x07 0x55 0xa2 0xff 0xa6;
  e 0x15 0xc5 0x0c 0xe8 0x9a 0x02 0xef 0xf7 0x9e;
  e 0xd3 0x5a 0x3c 0xb0 0xff 0x9a 0x08 0x4d 0x3f;
  e 0x63 0x90 0x31 0x67 0xe2 0x12 0x1a 0xba 0x4a;
  e 0xc9 0xc0 0x21 0x3f 0xea 0x9a 0x08 0xc5 0x6e;
  e 0xc3 0x7d 0xee 0x10 0x78 0x07 0x92 0xa7 0xa0;
  e 0xcb 0x7a 0x69 0x02 0x6d 0x07 0x92 0x3a 0x81;
  e 0x04 0x37 0x8e 0xcf 0xed 0x8f 0x95 0x42 0x9d;
  e 0xf6 0x82 0x3e 0x60 0xf7 0x12 0x1a 0x27 0xcb;
  e 0x96 0xb8 0x0e 0x55 0xf8 0x8f 0x95 0xca 0x6c;
  e 0x2c 0xa4 0x5d 0x12 0x47 0x0b 0x32 0xea 0xba;
  e 0x81 0x1c 0x0a 0x8f 0x9f 0x4b 0xdf 0xf7 0xa4;
  e 0xa6 0x3b 0xf5 0x9a 0xfd 0xeb 0x58 0x78 0x83;
  e 0x23 0xab 0xc7 0x12 0xdd 0x99 0xaf 0xff 0x94;
  e 0xe9 0x61 0x25 0x07 0xb7 0x4e 0xb2 0xf8 0x70;
  e 0x01 0x9c 0x18 0x8f 0x8d 0x43 0x57 0xe2 0x66;
  e 0x6e 0xe6 0xaa 0x07 0x38 0x54 0x2f 0xed 0x9a;
  e 0xbb 0x26 0xf2 0x9a 0xfa 0x7e 0xd0 0x6d 0x85;
  e 0xe8 0x4b 0x3b 0xa2 0x6e 0x08 0x9a 0xec 0xb1;
  e 0x2d 0x99 0xe6 0x98 0x81 0x92 0x07 0xdb 0x36;
  e 0x52 0x54 0xa4 0xef 0xa6 0x1a 0x12 0x91 0x72;
  e 0x98 0xeb 0x9c 0xc8 0x2c 0x95 0x8f 0x51 0xd4;
  e 0xef 0x43 0x26 0x2d 0xe9 0x08 0x9a 0x79 0xa8;
  e 0xc8 0x4e 0xab 0xe8 0xbb 0x1a 0x12 0x03 0xf3;
  e 0x8a 0x7e 0x1c 0x52 0x23 0x95 0x8f 0x59 0xa4;
  e 0xa2 0x0b 0x61 0x8a 0x01 0x92 0x07 0xc1 0xde;
  e 0xa2 0xe4 0xd7 0x6e 0x2f 0x0d 0x6f 0x95 0xf4;
  e 0xc8 0xc4 0xcd 0x2c 0x32 0xe7 0x97 0x08 0xf3;
  e 0x8a 0x53 0xa0 0x01 0x57 0xd2 0x22 0x1a 0xe1;
  e 0x98 0x49 0x3d 0x81 0xdf 0x48 0xad 0x1a 0xdf;
  e 0x52 0xcc 0x45 0x23 0xaf 0xe0 0x85 0x08 0x5b].
Definition B_9 : list aff := [
  e 0xe8 0x19 0xa8 0xbb 0xd0 0xbf 0xd5 0x92 0xfa;
  e 0xef 0x8b 0x35 0xa6 0x58 0x30 0x4f 0x92 0x94;
  e 0x2d 0x71 0x5f 0xe9 0xb2 0x1f 0x68 0x95 0x0c;
  e 0xeb 0x4d 0x5d 0xaf 0x06 0x7f 0xab 0x88 0xe8;
  e 0x7e 0xc5 0xc7 0x32 0x86 0x6a 0xa4 0x88 0x10;
  e 0x0b 0x27 0x18 0xdf 0x73 0x70 0x1c 0x9d 0xe0;
  e 0x43 0x42 0x25 0x2f 0xa9 0xf0 0xe6 0x88 0x74;
  e 0x54 0x3a 0xf5 0xd0 0xa3 0x62 0x26 0x9d 0xc8;
  e 0x4b 0xca 0xaa 0xb2 0xb4 0xe5 0x61 0x88 0x06;
  e 0x4e 0xa7 0xf2 0x58 0xac 0x77 0x3b 0x9d 0x98;
  e 0x99 0xba 0x0a 0x57 0xf4 0x65 0x9c 0x9d 0x3a;
  e 0xd6 0x2b 0x7e 0x52 0xbc 0x7c 0x9c 0xe3 0xe3;
  e 0xe3 0x7c 0x43 0x2d 0x13 0x24 0x3b 0xde 0xe9;
  e 0xdc 0x9b 0x99 0x98 0xb9 0x29 0x61 0x11 0x7f;
  e 0xc6 0x1b 0x0b 0x8a 0xb6 0x34 0xe6 0x83 0x1c;
  e 0x83 0x34 0x54 0xef 0xe1 0x9b 0xab 0xdc 0x18;
  e 0xde 0x24 0xeb 0xc8 0xa1 0xfb 0x1c 0x76 0xd4;
  e 0x76 0xfb 0x4b 0xa2 0x93 0x2b 0x26 0xd6 0x31;
  e 0x11 0x29 0x4e 0xe8 0x66 0x1b 0xa4 0xc6 0x94;
  e 0xc4 0x6b 0x50 0x3f 0x34 0x57 0xfe 0xbf 0x8b;
  e 0x49 0x1e 0xb5 0x60 0x2b 0x2f 0x8c 0xe7 0xe1;
  e 0x19 0x41 0x20 0x02 0x7c 0xaf 0x5b 0x0d 0xc6;
  e 0x8b 0x5b 0xbd 0x10 0xfb 0x32 0x41 0x1f 0x6a;
  e 0x53 0x8c 0x28 0x67 0x24 0xb2 0x1e 0xe0 0x87;
  e 0xcc 0xfe 0xd8 0xb0 0x29 0xdf 0x6b 0x30 0xfc;
  e 0xe4 0x56 0x4a 0xcf 0x9b 0x58 0x5e 0xd2 0x91;
  e 0x71 0x5e 0xc2 0x55 0x1b 0xd0 0x56 0x48 0x2c;
  e 0x48 0x42 0x1b 0x9b 0xba 0x1e 0xb2 0x49 0x79;
  e 0xe7 0xba 0x2b 0x24 0x4d 0x6b 0xdf 0xc4 0x95;
  e 0x0d 0xa7 0x7c 0xfb 0xca 0x56 0xd0 0xe4 0x0d;
  e 0xd2 0xca 0x9b 0x1b 0x27 0x8c 0x2f 0x53 0x87;
  e 0xe0 0x27 0x24 0x2b 0xc5 0xfe 0x57 0xcc 0xdb;
  e 0x30 0xc5 0x29 0x34 0x3a 0x5b 0xaf 0x8b 0x20;
  e 0xbf 0x4d 0x34 0x29 0xa7 0x41 0x32 0x19 0xeb;
  e 0x1f 0x3a 0xfb 0x7c 0x42 0x5e 0x58 0x71 0x76;
  e 0x9a 0xc6 0xea 0xe9 0x07 0xae 0x6e 0xcf 0x23;
  e 0x9a 0xdc 0xff 0x6e 0x07 0xb3 0xe9 0x55 0x30;
  e 0x12 0x76 0xf7 0xa6 0x9a 0x39 0xbb 0x02 0xba;
  e 0x07 0xde 0x78 0x01 0x8f 0xfc 0x81 0x60 0xce;
  e 0x8f 0x11 0xf8 0x23 0x12 0x94 0x2c 0x3f 0x72;
  e 0x8f 0x83 0xed 0x2c 0x12 0x14 0x23 0xb0 0x37;
  e 0x07 0xd6 0x6d 0x81 0x8f 0x7b 0x01 0x67 0xd8;
  e 0x12 0xe3 0xe2 0xbb 0x9a 0x36 0xa6 0x10 0xfa;
  e 0xf6 0x20 0xbd 0x69 0x01 0x61 0xe5 0xd0 0xf8;
  e 0xcb 0x28 0xb5 0x31 0xa6 0xa4 0x6a 0x57 0xf7;
  e 0x63 0xbd 0x20 0xee 0x81 0xe6 0xf0 0x58 0x05;
  e 0x96 0x50 0xd8 0x21 0x6e 0x3b 0x77 0x32 0x67;
  e 0x04 0xd8 0x50 0x3c 0xe9 0x26 0x62 0xaf 0x8e;
  e 0xc9 0x4a 0xc2 0x8e 0x23 0x1c 0x70 0x2f 0x77;
  e 0xd3 0xc2 0x4a 0x0e 0x2c 0x9c 0x65 0xb2 0x02;
  e 0xc3 0xb5 0x28 0x3e 0xbb 0xab 0x7f 0xdf 0x96;
  e 0xaa 0xcc 0x83 0x11 0xb6 0xff 0x2c 0x34 0xfe;
  e 0x18 0x8b 0xe3 0x76 0xbc 0x78 0xbb 0x7c 0x03;
  e 0x25 0xc4 0x11 0x83 0xb9 0xea 0x23 0x29 0x4e;
  e 0x0a 0x19 0x76 0xe3 0xa1 0x6d 0xa6 0xfb 0x72;
  e 0xc7 0x71 0xdc 0xc6 0xe1 0xf8 0x6e 0x9b 0xaf;
  e 0xf5 0x49 0xde 0xd6 0x13 0xf7 0x01 0x24 0xdd;
  e 0xf2 0x53 0xd6 0xde 0x93 0xe2 0x81 0x2b 0xd7;
  e 0x5d 0xe4 0xc6 0xdc 0x66 0xed 0xe9 0x1b 0x64;
  e 0x9c 0x4f 0xa6 0xf3 0x59 0xad 0x76 0x3b 0x88;
  e 0x1c 0xd5 0xbb 0x74 0x51 0x22 0xe3 0x26 0x5e;
  e 0x26 0x22 0x01 0xb1 0xec 0x4f 0xde 0x9c 0x27;
  e 0x61 0x97 0x2c 0x2e 0xdb 0x6f 0x83 0xa4 0xcc;
  e 0xab 0x68 0xe9 0x89 0x91 0x97 0xc6 0x61 0x39].
Definition B_10 : list aff := [
  e 0x3b 0xad 0x81 0xbe 0x79 0xd5 0xd6 0x1c 0x4a;
  e 0xe6 0x85 0x23 0x33 0xc1 0x68 0x11 0xab 0x4e;
  e 0xa4 0x6f 0x6e 0x09 0x03 0x85 0xdc 0xe6 0x00;
  e 0xa4 0x2d 0x3b 0xf1 0x71 0x17 0xf2 0xfd 0x3f;
  e 0x26 0x98 0x61 0x46 0x49 0xda 0xaa 0xb7 0x53;
  e 0x9c 0xe8 0xa4 0x9e 0x19 0xa5 0xc7 0x47 0xe2;
  e 0xab 0xa2 0x26 0x64 0xe4 0x05 0xf5 0xfa 0x67;
  e 0x3b 0x8a 0xe6 0x5c 0x53 0x40 0x25 0x38 0x74;
  e 0x61 0x52 0x9c 0xd1 0xcc 0x75 0x0a 0x8d 0x95;
  e 0xe6 0xc8 0x1c 0xd9 0xc4 0x72 0x18 0x9f 0x75;
  e 0x1c 0xef 0xab 0x0c 0x8b 0x2a 0x5d 0xdd 0x7d;
  e 0xe2 0xec 0x8d 0x79 0xcf 0xb5 0x04 0xff 0x46;
  e 0xea 0xdb 0x47 0xc1 0x60 0xd8 0xf6 0x6d 0x2f;
  e 0xf8 0x91 0xb7 0x03 0x10 0x4a 0xc3 0xf7 0x1a;
  e 0x6d 0x51 0xfa 0x59 0x3f 0xbd 0xc9 0xed 0x8c;
  e 0xf7 0x79 0x9f 0xec 0x55 0x28 0x96 0xea 0x18;
  e 0xed 0x03 0x38 0x91 0x02 0xc2 0xcb 0xe2 0x6e;
  e 0x78 0x59 0xfd 0x51 0xb0 0x20 0xd3 0xf8 0x80;
  e 0xff 0xc1 0xdd 0xdb 0x67 0x50 0x63 0x78 0x09;
  e 0xea 0x0b 0x99 0xca 0xdd 0x4d 0xaa 0x2e 0x62;
  e 0xff 0x99 0x0b 0x42 0x47 0xc5 0x25 0x33 0x1c;
  e 0xf7 0x4b 0x43 0xa7 0x8d 0xba 0xf2 0xbe 0x26;
  e 0x78 0xeb 0x7e 0xba 0xfa 0x3a 0x0a 0xf3 0xe0;
  e 0xf8 0x4e 0x54 0x4d 0x38 0x42 0x5d 0x89 0x59;
  e 0xed 0x54 0x4e 0xc5 0xb7 0xca 0xc7 0x09 0x46;
  e 0x6d 0x7e 0xeb 0x27 0xfd 0xa7 0x18 0x74 0x95;
  e 0xe2 0x43 0x4b 0x3a 0x9f 0x27 0xf5 0xb1 0x32;
  e 0xce 0x60 0xf9 0x28 0xbf 0x7a 0x8c 0x4a 0x15;
  e 0xd4 0x67 0x6c 0xb5 0x30 0x7d 0x1e 0xc2 0x2e;
  e 0xf9 0xcf 0x84 0xc2 0xe0 0x5a 0x5e 0xbd 0xe4;
  e 0x44 0x3f 0xd4 0xd8 0x0d 0x37 0xfe 0x28 0x2f;
  e 0x84 0x10 0x44 0x20 0x48 0x82 0x41 0x50 0x3b;
  e 0x6c 0x55 0x16 0x4a 0xe7 0xc0 0x56 0x20 0x11;
  e 0x4c 0xb0 0xce 0x50 0x1f 0xb8 0x6b 0xb5 0x78;
  e 0x16 0x02 0x4c 0xbd 0xd2 0x90 0x5b 0xd8 0xa2;
  e 0x26 0xfa 0x96 0x59 0x6f 0x29 0x93 0xfe 0x6f;
  e 0x61 0xb7 0x63 0x03 0xad 0x7c 0xb9 0x41 0xf1;
  e 0xa4 0x47 0xc3 0xc1 0xd5 0x24 0x66 0x8c 0x02;
  e 0x1c 0x9f 0xd3 0xec 0x97 0x9b 0xa1 0x56 0x72;
  e 0xe6 0x38 0xf6 0x91 0x22 0xfb 0xb6 0x5b 0x0d;
  e 0xab 0xdd 0xcb 0xdb 0x4f 0x2b 0xe1 0x1e 0x49;
  e 0x3b 0xfd 0x04 0x51 0x68 0x34 0x13 0x6b 0x4c;
  e 0x9f 0xc0 0x77 0x17 0xac 0xa2 0xd8 0xab 0xc8;
  e 0x47 0x7a 0xe5 0xda 0xb4 0x8a 0xbd 0x3b 0x30;
  e 0xb7 0x82 0x7f 0x2a 0x06 0xe8 0x28 0x9c 0xcb;
  e 0x38 0x90 0x6a 0xa5 0x86 0xef 0xb5 0x1c 0x50;
  e 0xdd 0x7d 0xf0 0x40 0xa9 0x98 0x20 0x26 0xa2;
  e 0x8d 0x5a 0x62 0x05 0xa3 0x2d 0x50 0xa4 0x8e;
  e 0xfa 0x37 0x70 0x72 0x73 0x52 0xc2 0x61 0x85;
  e 0xfd 0xb8 0x65 0x75 0xf4 0xc8 0x4a 0xe6 0xca;
  e 0x4d 0x06 0x4f 0xf3 0xfb 0x1f 0x35 0xbd 0xae;
  e 0x3a 0xa3 0x6f 0x09 0x9b 0xd2 0xd7 0x4a 0xa1;
  e 0x27 0x73 0x97 0x2e 0x34 0xbf 0xcd 0x50 0xc9;
  e 0xc5 0x86 0xd5 0x74 0x7c 0x0d 0xa8 0x20 0x55;
  e 0xa7 0xac 0x68 0x89 0x1b 0x48 0x5f 0xc2 0x3e;
  e 0x42 0xa9 0x22 0xb1 0x24 0xe0 0xa0 0x28 0xe1;
  e 0xba 0xf4 0x85 0x33 0x29 0x30 0x45 0xd8 0x0e;
  e 0xca 0xb4 0xad 0xbe 0x2b 0xe7 0x3d 0xb5 0x42;
  e 0x5f 0x38 0xe1 0x47 0x3e 0xb0 0xc3 0x81 0xa3;
  e 0xd7 0xb7 0x66 0xdd 0x31 0x3f 0xcb 0x01 0x56;
  e 0x35 0xfa 0xbc 0x9f 0x0e 0x67 0xd3 0xe9 0xdc;
  e 0xcd 0xdd 0xb9 0x38 0x69 0x55 0xf6 0xbb 0x67;
  e 0xa8 0xfd 0xa1 0x8d 0x8e 0x60 0xc9 0x6e 0x55;
  e 0x3d 0x8d 0x13 0xfa 0x21 0x10 0x96 0x2c 0xfd].
Definition B_11 : list aff := [
  e 0x45 0x47 0xb6 0xb7 0xee 0xcf 0x63 0xa6 0xb9;
  e 0xa0 0x9f 0x93 0xfd 0x3c 0x02 0x04 0x23 0x5f;
  e 0x50 0xaf 0x34 0x0c 0xac 0x9d 0x12 0xf2 0xbf;
  e 0xb5 0x57 0x2b 0xd1 0x06 0x88 0x8f 0x5d 0x5c;
  e 0x20 0x58 0x7c 0xf1 0xb4 0x88 0x9a 0xaa 0xd5;
  e 0xd8 0x32 0x29 0x9e 0xa3 0x9d 0x12 0xf5 0x6f;
  e 0xc2 0x2f 0x1b 0x5c 0xf4 0x9d 0x07 0x0a 0x7e;
  e 0x4a 0xb2 0x9b 0x46 0x73 0x9d 0x07 0x18 0x96;
  e 0x28 0xdf 0x24 0xd9 0x86 0x88 0x8f 0xc7 0x95;
  e 0xbd 0xd0 0xfb 0x64 0xa9 0x88 0x9a 0x25 0x24;
  e 0xf9 0xae 0xbf 0x14 0x9c 0x49 0x0d 0x98 0xc1;
  e 0x44 0x94 0x48 0xae 0x26 0x8b 0xe7 0xef 0x7f;
  e 0x6c 0xb3 0x30 0x94 0x1c 0x53 0x1f 0x8a 0x79;
  e 0x84 0x36 0xe0 0xfc 0x61 0xe4 0x30 0xa2 0x41;
  e 0x16 0x39 0xe7 0x7b 0xe6 0x71 0xbf 0x2d 0xde;
  e 0xd4 0x7b 0x0d 0x36 0xab 0xc4 0xd2 0xc8 0x7b;
  e 0x4c 0x14 0xd2 0xb3 0x3b 0x19 0xe0 0xe8 0x1b;
  e 0xce 0xfc 0x1f 0x39 0xa4 0xcc 0x48 0x52 0x38;
  e 0xbe 0x67 0x2a 0x8c 0x7e 0x07 0x1a 0x0d 0x2a;
  e 0x2e 0xb0 0x17 0xfe 0x54 0x8f 0x08 0xd2 0x77;
  e 0x09 0x55 0x72 0x5e 0x99 0x9a 0x95 0x30 0x2c;
  e 0xb1 0x60 0xa5 0x1e 0xeb 0x07 0x1a 0x1f 0x12;
  e 0x33 0x3f 0x05 0x6b 0x4e 0x8f 0x08 0x48 0x26;
  e 0xf3 0x02 0x40 0x41 0x4b 0x12 0x92 0xe7 0x39;
  e 0x74 0x10 0xda 0x5b 0x43 0x12 0x92 0xe0 0x99;
  e 0x89 0xcf 0x75 0x56 0x0b 0x9a 0x95 0xbf 0xe5;
  e 0xa1 0x55 0x8e 0xc2 0x45 0x27 0x16 0x0b 0x83;
  e 0xbc 0xcf 0x0e 0x4a 0xcd 0xba 0x84 0x99 0xfc;
  e 0xb9 0x10 0x69 0xbd 0xa0 0xca 0x44 0x4b 0x0c;
  e 0xe1 0x67 0x3e 0x28 0xa8 0x4d 0x6c 0xeb 0x19;
  e 0x13 0xb0 0x21 0xd8 0xd7 0xa7 0xce 0x4e 0x6d;
  e 0x93 0x3f 0x3c 0x50 0x5f 0x3a 0xd4 0x54 0xb1;
  e 0x66 0x60 0x31 0xb5 0x35 0xc5 0xf9 0x7e 0x86;
  e 0xb6 0x02 0xee 0x20 0x3d 0x42 0x4c 0x43 0x30;
  e 0x59 0xd7 0x68 0x6f 0x65 0x74 0xea 0x3e 0x21;
  e 0x03 0x3d 0x22 0xad 0x6a 0x89 0x78 0x3c 0xf2;
  e 0xdb 0x35 0xd5 0x4f 0xe5 0x33 0xe2 0x8e 0x4d;
  e 0x51 0x5f 0x6f 0x68 0x70 0xf3 0xff 0x31 0x65;
  e 0x91 0xa0 0xad 0x22 0x7f 0x09 0x6d 0x21 0x06;
  e 0xec 0xcd 0x85 0x97 0x62 0xbe 0xf8 0xee 0x94;
  e 0xc1 0xa8 0x4f 0xd5 0xf0 0x2e 0xf7 0x0e 0x3c;
  e 0x79 0x45 0x97 0x85 0x77 0xb1 0xed 0x69 0x55;
  e 0x42 0xde 0x3d 0xa0 0x24 0xb3 0xb1 0x6a 0xc1;
  e 0x27 0x83 0x45 0xcd 0x34 0x7b 0x2e 0x77 0x89;
  e 0x3a 0xdc 0x5f 0xd7 0x9b 0x36 0x09 0x70 0x81;
  e 0x4d 0x76 0xa8 0x35 0xfb 0x94 0xf3 0xf0 0xb8;
  e 0xa7 0xc6 0xd7 0x5f 0x1b 0x39 0x89 0x65 0x3b;
  e 0xca 0xd6 0xa0 0x3d 0x2b 0xae 0xbe 0x7f 0x71;
  e 0xc5 0xe3 0x35 0xa8 0x7c 0x14 0x74 0xe5 0x46;
  e 0xba 0x11 0xcd 0x45 0x29 0xfc 0x33 0x62 0x7d;
  e 0x3b 0xa3 0x6e 0xff 0x42 0xfc 0xac 0x65 0x05;
  e 0xe6 0xb4 0x81 0x6d 0x27 0x14 0xa9 0x6a 0x57;
  e 0xab 0x86 0xbb 0xe2 0x3a 0xb3 0x06 0xf0 0x40;
  e 0x1c 0xf4 0x23 0xf8 0x4d 0x39 0x73 0x77 0x03;
  e 0xa4 0x06 0xa6 0xf7 0xa7 0xae 0x86 0xe5 0x0a;
  e 0x26 0xac 0xe9 0xea 0xca 0x7b 0xa3 0x70 0x29;
  e 0x9c 0x73 0x2c 0xed 0xc5 0x36 0xf4 0x62 0xc9;
  e 0x61 0xa9 0x01 0x78 0xba 0x94 0xb4 0x7f 0xfb;
  e 0x93 0x5e 0xcf 0x72 0xcc 0x9c 0x65 0x0b 0x83;
  e 0x13 0x56 0x55 0x75 0xc4 0x1c 0x70 0x99 0x26;
  e 0xb9 0x8c 0x60 0x2a 0x19 0xa4 0x6a 0xeb 0x27;
  e 0xb6 0x1e 0x67 0xa5 0x8b 0xab 0x7f 0x7e 0x7e;
  e 0x66 0x5b 0x02 0xda 0x53 0xe6 0xf0 0x4b 0xf4;
  e 0xe1 0x41 0x10 0x40 0x49 0x61 0xe5 0x43 0x60].
Definition B_12 : list aff := [
  e 0xa1 0xfe 0x3f 0x17 0xe4 0x26 0x62 0x4e 0xe7;
  e 0xbc 0x6b 0xb0 0x05 0x71 0x3b 0x77 0x54 0x8f;
  e 0xb9 0xbb 0xf3 0x06 0x40 0xf4 0xa6 0x8e 0x6f;
  e 0xb6 0xa6 0x74 0x86 0xda 0x73 0xbb 0x0e 0x52;
  e 0xe1 0x81 0xb1 0xa9 0xa5 0xa3 0x01 0x21 0x74;
  e 0x93 0x23 0x2e 0x73 0x17 0xb4 0x2c 0xee 0xfa;
  e 0xa1 0x6e 0x89 0xac 0x75 0x06 0xe9 0x31 0xcd;
  e 0x66 0x01 0xbe 0xb4 0x2a 0xac 0x81 0x3c 0xbe;
  e 0x13 0x2c 0x33 0xf4 0x05 0xa9 0x23 0x69 0x6b;
  e 0xbc 0xe9 0x09 0xa3 0x72 0x86 0x6e 0x3e 0xab;
  e 0x7b 0x5c 0xca 0xe6 0xd9 0x1e 0xb2 0xd6 0xe1;
  e 0xb3 0xf1 0x3a 0x3b 0x5c 0x56 0xd0 0xdc 0xc4;
  e 0xfc 0x46 0x42 0x61 0xd1 0x8c 0x2f 0xde 0x57;
  e 0xae 0x64 0xa7 0x26 0x46 0x5e 0x58 0xc6 0xa6;
  e 0x36 0x0c 0xc5 0xab 0x64 0x41 0x32 0xe3 0xeb;
  e 0x94 0xd9 0xba 0x1c 0x0c 0xfe 0x57 0x11 0xe3;
  e 0x14 0xd1 0x27 0x9c 0x9e 0x6b 0xdf 0x83 0x5c;
  e 0x39 0x9e 0x4d 0xa4 0xf1 0x5b 0xaf 0x76 0x80;
  e 0xae 0x8a 0x07 0x42 0x7e 0x6c 0xaa 0xd6 0xdf;
  e 0x94 0xe8 0x12 0xc5 0x4b 0x4c 0x5d 0x76 0xcc;
  e 0x7b 0x52 0x8f 0xba 0x54 0xce 0x18 0x83 0xa4;
  e 0xfc 0xc8 0x8f 0x27 0x4e 0xd4 0x0a 0x11 0x75;
  e 0x14 0xef 0x12 0x4d 0x43 0x44 0xc7 0xe3 0x5f;
  e 0x39 0xa2 0x9a 0x3a 0x0b 0x84 0xf2 0xc6 0xf6;
  e 0x36 0x2d 0x9a 0xa7 0x99 0x16 0xf5 0xdc 0xaa;
  e 0xb3 0x98 0x07 0xca 0xeb 0xf9 0x25 0xde 0xc1;
  e 0x93 0x77 0xce 0xd4 0x5f 0x2d 0x50 0xc7 0xe7;
  e 0xb9 0xf0 0x4c 0x44 0xa0 0x8a 0xbd 0xf2 0x29;
  e 0x66 0x7f 0x6c 0xf9 0x35 0xef 0xb5 0x18 0xf0;
  e 0xa1 0x65 0x84 0x16 0x45 0x52 0xc2 0xaa 0xf5;
  e 0xb6 0xe5 0x44 0x4c 0x3d 0x98 0x20 0xf5 0x23;
  e 0xe1 0x6a 0xf9 0x6c 0xa8 0xe8 0x28 0x0a 0x4a;
  e 0xbc 0x70 0x16 0x84 0xcd 0xc8 0x4a 0x25 0xca;
  e 0x13 0x62 0xd4 0xce 0xd7 0xa2 0xd8 0x5d 0x68;
  e 0xa3 0x42 0xb2 0xca 0xf6 0xe8 0x46 0x23 0x63;
  e 0xf4 0x4d 0x32 0xc5 0xcb 0x8a 0x9e 0xe9 0x40;
  e 0x06 0xa7 0xd0 0x3a 0x04 0x52 0x64 0x81 0x35;
  e 0x86 0x3a 0x58 0xa7 0x96 0xc8 0xf1 0x01 0xca;
  e 0xa9 0xba 0xdf 0x27 0xc9 0xa2 0xd9 0xa6 0xbb;
  e 0xac 0xca 0x2f 0x42 0x63 0xef 0x5c 0x2c 0x1b;
  e 0x73 0xc5 0xaf 0x4d 0xc3 0x98 0x0c 0x6e 0xb3;
  e 0xb4 0x27 0x57 0xba 0xd3 0x2d 0xd1 0xbb 0xcf;
  e 0x2a 0x95 0xb8 0x72 0x1f 0xc0 0x56 0xf0 0x08;
  e 0x05 0x1a 0x90 0x2a 0xd2 0x7d 0x1e 0x70 0x47;
  e 0x72 0x92 0x7a 0x40 0xbf 0x90 0x5b 0x77 0x23;
  e 0xa5 0x95 0x37 0x75 0x0d 0x5a 0x5e 0xe5 0xac;
  e 0x17 0x1a 0x82 0xa5 0x48 0x7a 0x8c 0x65 0x5d;
  e 0x40 0x08 0x5a 0x17 0xe0 0xb8 0x6b 0x6a 0x61;
  e 0x75 0x92 0x7d 0xda 0x30 0x82 0x41 0x62 0x3b;
  e 0xda 0x08 0xc0 0x05 0xe7 0x37 0xfe 0x7f 0xc7;
  e 0xad 0x79 0xbc 0xa1 0x17 0x7d 0x9f 0x83 0x9e;
  e 0x4f 0x59 0x93 0x13 0x75 0x90 0xfd 0xc6 0x0a;
  e 0x97 0xdb 0xe1 0x66 0xda 0xb8 0x47 0xe3 0xb1;
  e 0x85 0xc1 0x66 0xe1 0x40 0x37 0xdd 0x76 0x8e;
  e 0xd5 0x51 0x13 0x93 0x72 0x82 0xfa 0xdc 0xba;
  e 0x68 0x91 0xb6 0xb9 0x2a 0x5a 0xb7 0xd6 0x2f;
  e 0x6f 0x03 0xb9 0xb6 0xa5 0xc0 0x38 0xde 0x61;
  e 0x22 0xec 0xa1 0xbc 0x05 0x7a 0x8d 0x11 0x5f;
  e 0x5c 0xd9 0xd1 0x9c 0xed 0x8e 0x2b 0xfd 0xdb;
  e 0x64 0x46 0x5c 0xe6 0x6d 0x69 0x1b 0xdd 0x41;
  e 0xd1 0x9e 0x0c 0xab 0xe2 0x31 0x34 0xb7 0x89;
  e 0x46 0xd1 0xd9 0x1c 0xf8 0x0e 0x24 0xfa 0xcf;
  e 0x9e 0xf1 0x64 0x26 0xea 0x21 0xfb 0x8d 0x6d;
  e 0x0c 0x64 0xf1 0x3b 0xff 0x3c 0x7c 0x9f 0x8f].
Definition B_13 : list aff := [
  e 0xf1 0x5c 0x46 0x61 0x78 0xee 0x9b 0x47 0xd6;
  e 0xd9 0x0c 0x9e 0xa4 0xf7 0x3e 0x29 0x38 0xe8;
  e 0xfe 0x6e 0xc6 0x09 0x60 0x87 0x1d 0xb9 0xee;
  e 0x56 0x2c 0x11 0x2e 0x10 0x0f 0x80 0xe1 0x48;
  e 0x1e 0xa6 0xe3 0xf3 0xcf 0x1d 0x0f 0x93 0xc3;
  e 0x8c 0xbb 0x76 0x74 0x55 0x1d 0x0f 0x13 0x7a;
  e 0x5b 0x01 0xd6 0xb1 0x3f 0x80 0x87 0xa1 0x8d;
  e 0x5e 0x23 0x83 0x33 0x02 0x0f 0x80 0x66 0x69;
  e 0x41 0x81 0xde 0xbe 0xb0 0x80 0x87 0xbc 0xc5;
  e 0x6b 0xe9 0xdc 0x89 0x67 0x87 0x1d 0xb6 0x3e;
  e 0x91 0xd5 0xe3 0xa8 0xee 0xcc 0x76 0x5e 0x48;
  e 0x03 0x4f 0x76 0x35 0x69 0xc4 0xe3 0x56 0xb2;
  e 0xc1 0xad 0xd6 0x3d 0x31 0xe4 0xde 0xfe 0x53;
  e 0x51 0x85 0x11 0x45 0x21 0x49 0x83 0x41 0x59;
  e 0x79 0x6f 0xdc 0xd7 0x0e 0x8b 0xc6 0x1e 0x2d;
  e 0xdb 0x22 0xde 0xa0 0x3e 0x71 0xd6 0x6b 0x06;
  e 0x59 0x97 0x83 0xcd 0x3c 0x53 0x11 0x5b 0x6b;
  e 0xec 0x68 0xc6 0x5f 0x8e 0x19 0xdc 0x8c 0xb0;
  e 0xac 0xcb 0xc1 0x47 0x1e 0x08 0x88 0xad 0x61;
  e 0x06 0xc9 0xec 0x9f 0x5e 0x1a 0x9d 0x68 0x18;
  e 0xa3 0xc3 0xdb 0xdd 0x8c 0x08 0x88 0x22 0x78;
  e 0xb4 0x04 0x59 0xfa 0x6b 0x92 0x9d 0x97 0xfd;
  e 0xf4 0xf6 0x03 0xb7 0x5b 0x95 0x88 0x4f 0x54;
  e 0x86 0xd3 0x79 0x8d 0x56 0x1a 0x9d 0x6f 0xb8;
  e 0x73 0x63 0x91 0x38 0x41 0x95 0x88 0xd5 0xa5;
  e 0x09 0x63 0x88 0x03 0x90 0x05 0xc1 0xa0 0x34;
  e 0x33 0xc3 0x88 0xc1 0x7d 0x75 0x91 0x35 0x6d;
  e 0xf3 0x96 0x9d 0x59 0xb8 0x2a 0x79 0x5f 0x25;
  e 0x74 0x04 0x9d 0x51 0x37 0xa5 0xec 0xd7 0xea;
  e 0xb1 0xd3 0x9d 0xec 0x5a 0x40 0x59 0x45 0x3d;
  e 0x89 0xf6 0x88 0x91 0x82 0x17 0xdb 0x3d 0xe5;
  e 0x2e 0xcb 0x88 0xdb 0x7a 0x72 0x03 0xa8 0x6e;
  e 0xbe 0xc9 0x9d 0x79 0xc0 0xda 0x51 0xcd 0x20;
  e 0x3b 0xec 0x59 0x13 0x68 0x4d 0x51 0x50 0x69;
  e 0xa4 0x91 0xdb 0x66 0xd5 0x27 0xc1 0x28 0x31;
  e 0x9c 0x51 0xec 0xbc 0x85 0x42 0x79 0xc2 0x90;
  e 0xe6 0xdb 0x03 0xb6 0x22 0x3a 0x91 0xbd 0x08;
  e 0xab 0x03 0xc1 0xe1 0x4f 0xba 0xdb 0xb5 0x6c;
  e 0x61 0xc1 0x91 0xb9 0xad 0xa7 0x03 0x20 0xa7;
  e 0x1c 0x59 0x79 0xa1 0x97 0xca 0xec 0x4a 0x37;
  e 0x26 0x79 0x51 0x93 0x6f 0xc5 0x59 0xd8 0x3c;
  e 0x13 0x1d 0x09 0x68 0x16 0xe2 0xac 0x6c 0x64;
  e 0xa1 0x80 0x33 0x97 0xd4 0x78 0x73 0x44 0xba;
  e 0x66 0x0f 0xf3 0xd5 0x4c 0xf8 0x86 0x16 0xff;
  e 0xe1 0x0f 0x74 0x4f 0x44 0xed 0x06 0x84 0x4c;
  e 0xb9 0x87 0xb1 0xad 0xf9 0xff 0xb4 0xce 0x36;
  e 0x93 0x1d 0x89 0x6f 0x84 0xf7 0xa3 0xf9 0xcd;
  e 0xbc 0x80 0x2e 0x85 0xce 0x6d 0xf4 0x4c 0xb8;
  e 0xb6 0x87 0xbe 0x22 0x6c 0xea 0xa9 0xd4 0x2e;
  e 0xda 0xce 0xb0 0xfe 0xe7 0x16 0x05 0xa5 0x91;
  e 0x2a 0x84 0xcf 0x56 0x1f 0xce 0x72 0xda 0x0d;
  e 0x72 0x44 0x10 0x5b 0xbf 0xf9 0x40 0x05 0x30;
  e 0x75 0x4c 0x02 0x41 0x30 0x6c 0xda 0x17 0x3e;
  e 0xa5 0x16 0x55 0x5e 0x0d 0xd4 0x75 0x40 0xec;
  e 0x17 0x6c 0x67 0x8c 0x48 0x44 0xa5 0x72 0x2e;
  e 0x05 0xf9 0x60 0x1e 0xd2 0x4c 0x2a 0x75 0x74;
  e 0x40 0xd4 0x3f 0x6b 0xe0 0x84 0x17 0x2a 0x24;
  e 0x7d 0xe7 0x30 0x15 0x2d 0xf3 0x94 0x54 0x7f;
  e 0x7a 0xe0 0xbf 0x15 0xa2 0x74 0x14 0x4e 0x51;
  e 0x5a 0x48 0xe0 0x15 0xef 0x33 0xfc 0x7e 0x14;
  e 0x37 0x30 0x0d 0x15 0x8a 0x09 0x36 0x4b 0x36;
  e 0x90 0x1f 0xd2 0x15 0x52 0xb1 0xb3 0x0b 0x9f;
  e 0x82 0x0d 0x48 0x15 0xc8 0xbe 0xae 0x99 0xb6;
  e 0xb8 0xbf 0x1f 0x15 0x98 0x89 0x39 0x43 0xf2].
Definition B_14 : list aff := [
  e 0xc0 0xd2 0xe7 0x15 0xe8 0x2e 0x7b 0xeb 0xd7;
  e 0x43 0xbc 0x8d 0xd3 0xea 0xc5 0x59 0x21 0x4c;
  e 0xeb 0x13 0xfd 0x96 0xed 0x42 0x79 0x8e 0x89;
  e 0x4b 0xa1 0x9f 0xc9 0xff 0x4d 0x51 0x3c 0x48;
  e 0x54 0xb6 0x38 0x63 0xf7 0x27 0xc1 0x3e 0xa9;
  e 0x4e 0xb9 0xb7 0xf6 0xe2 0xba 0xdb 0x31 0x9d;
  e 0x99 0xe1 0xdd 0xc3 0x6d 0x3a 0x91 0x69 0x11;
  e 0x0b 0x66 0x47 0xcb 0x78 0xa7 0x03 0xee 0xf6;
  e 0x7e 0x93 0xfa 0x04 0xf8 0xca 0xec 0x0e 0x5e;
  e 0x34 0xf2 0xa7 0xfb 0xd7 0xd4 0x3a 0xc9 0x6e;
  e 0x9b 0x18 0x27 0x2b 0x45 0x84 0xba 0x04 0x95;
  e 0x29 0xf5 0x3a 0x7c 0x5f 0xce 0xa7 0xd3 0x54;
  e 0x2b 0x5d 0x4d 0x29 0xa8 0xf9 0xc5 0xf6 0x89;
  e 0x24 0xc7 0xc5 0x34 0x35 0x6c 0x4d 0x63 0xe6;
  e 0x7c 0xaa 0xca 0x1b 0xa0 0x4c 0x42 0xcb 0xef;
  e 0xfb 0x25 0x42 0x9b 0x3d 0x44 0xca 0xc3 0x15;
  e 0x1b 0x0a 0xba 0x24 0xcd 0x16 0x27 0x96 0x3a;
  e 0x69 0x50 0x77 0xb0 0xbf 0x84 0x17 0x90 0xd5;
  e 0x31 0x4a 0x70 0x55 0xd2 0xce 0x72 0x7d 0xc4;
  e 0x3e 0xc2 0x65 0xcf 0x48 0xd4 0x75 0x7a 0x9c;
  e 0x0e 0xbd 0xf0 0x02 0x1f 0xf9 0x40 0xc0 0x29;
  e 0x8e 0x20 0xe5 0x10 0x0d 0x6c 0xda 0x5a 0xee;
  e 0x21 0xb5 0x7f 0x67 0xe7 0x4c 0x2a 0x37 0x04;
  e 0x3c 0x28 0x6a 0x60 0xe0 0x44 0xa5 0xb8 0x47;
  e 0xee 0xd8 0x62 0x3f 0x30 0x16 0x05 0x82 0x09;
  e 0x90 0x84 0x75 0x37 0x36 0x3c 0x65 0x92 0xa6;
  e 0x7d 0xce 0x17 0x5a 0xfc 0x0e 0x77 0x1a 0x2f;
  e 0xb8 0x44 0xda 0x7d 0x94 0x3e 0xe5 0x08 0x81;
  e 0x37 0x4c 0x40 0x7a 0x14 0x31 0xf0 0x08 0x29;
  e 0x5a 0x6c 0x2a 0x90 0xb3 0xee 0x7f 0x95 0x36;
  e 0x82 0x16 0x72 0xb8 0x39 0x21 0x70 0x92 0xf6;
  e 0x7a 0xd4 0x05 0xc0 0x7b 0x8e 0x62 0x1a 0x33;
  e 0xc0 0xf9 0xa5 0x82 0xae 0x69 0x6a 0x95 0xd2;
  e 0xde 0xf9 0x3e 0x31 0x0a 0x99 0x90 0xe7 0xdf;
  e 0xdc 0x16 0x0e 0x8e 0x25 0x43 0x37 0x48 0x7c;
  e 0x11 0xd4 0x21 0x3c 0x5d 0xeb 0x5a 0xbf 0xa9;
  e 0xd6 0x6c 0x31 0x3e 0x18 0x0b 0x82 0xe0 0x9b;
  e 0xe3 0x44 0xee 0x69 0xf5 0x54 0x7a 0x1f 0xb0;
  e 0x76 0x4c 0x69 0xee 0xf2 0x4e 0x7d 0x0d 0x00;
  e 0xc6 0x84 0x8e 0x0e 0xaa 0x4b 0xb8 0xd2 0x07;
  e 0x83 0xce 0x3c 0x21 0xc7 0x7e 0xc0 0x30 0x26;
  e 0x2c 0xef 0xc5 0x32 0x47 0x07 0x12 0xc6 0xfa;
  e 0xe9 0x8a 0xca 0xb2 0xb7 0x12 0x07 0x11 0x63;
  e 0x01 0xc8 0xba 0x57 0x8d 0x9a 0x8f 0xe3 0x75;
  e 0x81 0x52 0x27 0xdf 0x9f 0x9a 0x8f 0x76 0x84;
  e 0xbb 0x2d 0x3a 0xd0 0xfa 0x8f 0x9a 0xd6 0x85;
  e 0x6e 0x98 0x42 0x2f 0x38 0x12 0x07 0x83 0xda;
  e 0xa6 0xa2 0xa7 0x58 0xfd 0x8f 0x9a 0xde 0xf5;
  e 0x23 0xe8 0x4d 0xaf 0xdd 0x07 0x12 0xdc 0xc2;
  e 0xe4 0x2f 0xca 0x99 0x91 0x34 0xe6 0x73 0xed;
  e 0x71 0xb2 0x42 0x0b 0x03 0x29 0x61 0xf4 0x16;
  e 0x8b 0x58 0x3a 0x4b 0x51 0x24 0x3b 0xa9 0x49;
  e 0x53 0x57 0x27 0xeb 0x79 0x7c 0x9c 0x86 0xdb;
  e 0xc4 0x32 0x4d 0x54 0xc1 0x1b 0xa4 0xac 0xdc;
  e 0x19 0xd0 0xa7 0x43 0x59 0x2b 0x26 0xb4 0xa9;
  e 0x49 0xdf 0xba 0x7e 0xec 0xfb 0x1c 0x06 0xa4;
  e 0xcc 0xaf 0xc5 0x4e 0xdb 0x9b 0xab 0xa3 0xb8;
  e 0xd6 0xfe 0x3c 0xc0 0x6a 0xf6 0xd8 0x89 0xf1;
  e 0xc6 0x8c 0x31 0x82 0x70 0x96 0x28 0xf3 0x16;
  e 0x76 0x56 0x8e 0xb8 0xe5 0xc3 0x4a 0x33 0x1a;
  e 0x11 0x41 0x69 0x7d 0x77 0xd3 0x20 0xb1 0xc6;
  e 0xe3 0x5e 0x0e 0x37 0xf0 0xcb 0xc2 0x2e 0xa8;
  e 0xde 0x6b 0x21 0x5a 0x7f 0x63 0x50 0x09 0xa6;
  e 0xdc 0x1e 0x3e 0x90 0x65 0x04 0xb5 0x74 0x51].
Definition B_15 : list aff := [
  e 0xeb 0x2c 0x80 0x83 0xef 0xe0 0x85 0xd4 0xe2;
  e 0x7e 0x23 0x80 0x11 0xe8 0xe7 0x97 0xce 0x72;
  e 0x43 0xe9 0x1d 0xc6 0x8a 0x0d 0x6f 0x16 0x05;
  e 0x4b 0x6e 0x1d 0xdc 0x98 0x1f 0x68 0x84 0x44;
  e 0x54 0xa6 0x0f 0x76 0xa2 0xbf 0xd5 0x44 0xc2;
  e 0x4e 0xbb 0x0f 0xe3 0x2d 0x30 0x4f 0x4c 0xdc;
  e 0x99 0x81 0x87 0xd6 0x52 0xd2 0x22 0xf9 0x79;
  e 0x0b 0x01 0x87 0xde 0xc8 0x48 0xad 0x6c 0xb6;
  e 0xc8 0x35 0xf3 0xa6 0xfa 0xd6 0xd5 0x3a 0xf3;
  e 0xe8 0x5f 0x89 0xe9 0x38 0x83 0x6f 0x42 0xcd;
  e 0x98 0x45 0x33 0x23 0x47 0xc6 0x97 0xc5 0xfe;
  e 0x8a 0xcd 0x2e 0x2c 0xdd 0xdc 0x85 0x4d 0xb7;
  e 0xef 0xd7 0x09 0x6e 0xb7 0x11 0x68 0xca 0xb0;
  e 0x52 0xa8 0x74 0xbb 0xfd 0xde 0x4f 0xa7 0x10;
  e 0xa2 0x3d 0xbe 0x81 0x8d 0xe3 0x22 0xba 0xf0;
  e 0x2d 0xa0 0xb1 0x01 0x9f 0x76 0xad 0x27 0x27;
  e 0x1d 0x91 0xc3 0xf6 0x1a 0x50 0x63 0xa9 0x91;
  e 0x1d 0x03 0xcb 0x63 0x1a 0xd8 0xf6 0xb4 0xc7;
  e 0x87 0x79 0x96 0xc9 0x08 0x20 0xd3 0xf4 0x20;
  e 0x87 0xec 0x04 0xd3 0x08 0xbd 0xc9 0x73 0x45;
  e 0x0f 0x59 0xd3 0x96 0x95 0xb5 0x04 0xa3 0xae;
  e 0x0f 0x51 0xc9 0x04 0x95 0x28 0x96 0xac 0xb8;
  e 0xf0 0x87 0x6d 0x53 0x05 0x33 0x81 0x51 0x1e;
  e 0x70 0x80 0xf8 0xc4 0xda 0x74 0x23 0x91 0xb2;
  e 0x62 0x1d 0xea 0xe4 0xa5 0xb1 0xe9 0xdb 0xf4;
  e 0x6a 0x0f 0xf7 0x19 0x72 0x09 0xa6 0x79 0xfe;
  e 0x65 0x80 0xed 0xcc 0x40 0xf3 0x2c 0x03 0xbf;
  e 0x77 0x1d 0xff 0x71 0x2a 0xbe 0x6e 0xc1 0xee;
  e 0x7f 0x0f 0xe2 0x8b 0x75 0x89 0xbb 0xec 0xeb;
  e 0xe5 0x87 0x78 0x49 0x17 0x2e 0x01 0x59 0x1c;
  e 0x0a 0xf7 0xa8 0xa6 0xa1 0x22 0xe3 0xf1 0x37;
  e 0xf5 0x78 0x3d 0x01 0x13 0xd5 0xd6 0xd1 0xcb;
  e 0xaa 0xed 0x45 0x2c 0xb6 0x68 0x11 0x9e 0x9e;
  e 0x25 0xf8 0xcd 0x23 0xb9 0x6f 0x83 0x0c 0x3d;
  e 0x5d 0xea 0xd7 0xe9 0x66 0x85 0xdc 0x46 0x21;
  e 0xf2 0x6d 0xa0 0x81 0x93 0x4f 0xde 0xd9 0xf7;
  e 0xc7 0xff 0x5f 0x6e 0xe1 0x97 0xc6 0x5c 0x99;
  e 0x18 0xe2 0x35 0xbb 0xbc 0xad 0x76 0x64 0x10;
  e 0x90 0x2b 0x57 0xc8 0xa6 0x91 0x0a 0xa4 0xd4;
  e 0x37 0x1b 0x2f 0x98 0x23 0x59 0x25 0x1c 0x14;
  e 0x82 0x24 0xdf 0x52 0xbb 0x03 0x18 0xab 0xe0;
  e 0x7a 0xfb 0xd0 0x2d 0x01 0xc1 0xf5 0x61 0x2f;
  e 0xb8 0x9b 0xb2 0x8a 0x2c 0x51 0xaa 0x9c 0xf7;
  e 0x7d 0x7c 0x58 0xa2 0x81 0xdb 0xf2 0xe6 0x56;
  e 0xc0 0x29 0x32 0xef 0x6e 0xec 0xc7 0x3b 0x92;
  e 0xa7 0xca 0x46 0x99 0xd6 0x40 0x25 0xc1 0x04;
  e 0x3a 0x42 0x5c 0x0b 0xde 0xda 0xaa 0xdb 0xd2;
  e 0xc5 0x3a 0x64 0x4b 0xdc 0x17 0xf2 0x79 0x6e;
  e 0xca 0x27 0xd9 0xeb 0x83 0x75 0x0a 0x59 0x5c;
  e 0xba 0x4d 0x0c 0x54 0x76 0xa5 0xc7 0x03 0x5b;
  e 0x4d 0xa7 0xf1 0x43 0xc6 0x05 0xf5 0xec 0x8f;
  e 0x42 0xba 0xd1 0x7e 0x11 0x72 0x18 0x51 0x84;
  e 0x27 0xc5 0x9e 0x4e 0xe3 0x2a 0x5d 0x91 0xb4;
  e 0x22 0xeb 0x24 0x57 0x13 0x64 0x52 0xf7 0x5c;
  e 0x85 0x4e 0x29 0xaf 0xb9 0x5c 0xef 0xea 0xea;
  e 0x6f 0x99 0x9b 0x2f 0xe1 0x9e 0x8a 0xf8 0x1e;
  e 0x68 0x0b 0x1b 0xb2 0x66 0x0c 0x98 0xed 0x62;
  e 0x97 0x54 0x34 0x32 0xb6 0x46 0xe8 0xff 0xfa;
  e 0xad 0x7e 0x2b 0xdf 0x93 0xf1 0xc8 0xe2 0x82;
  e 0x4f 0x4b 0xfb 0x58 0xa1 0xd1 0x2d 0x6d 0x31;
  e 0xd5 0x43 0x7c 0xd0 0xbc 0xd9 0xa2 0x78 0x83;
  e 0xa8 0xf1 0xd0 0x7c 0xec 0xba 0xf2 0xa9 0x77;
  e 0xd7 0x46 0x2f 0x9b 0xc1 0x4d 0xaa 0xf4 0x5a;
  e 0x35 0x64 0x58 0xfb 0x79 0x27 0xf5 0xb4 0x8b].
Definition B_16 : list aff := [
  e 0x5f 0x5c 0xb2 0x1b 0xdb 0xc5 0x25 0x73 0xed;
  e 0x3d 0xd1 0xdf 0x2b 0x51 0x3a 0x0a 0x86 0xf9;
  e 0xa0 0xd9 0x57 0x24 0x59 0xa7 0x18 0x06 0x5c;
  e 0xcd 0x0c 0x32 0x34 0x03 0x42 0x5d 0xa3 0x40;
  e 0xff 0x6a 0x2a 0x1a 0xb8 0xfa 0x82 0x74 0x73;
  e 0x6d 0x77 0x05 0x08 0x90 0xb7 0x5a 0x89 0xf1;
  e 0xf7 0x65 0x72 0x95 0x7a 0xdd 0x37 0x33 0x68;
  e 0xed 0xe5 0x40 0x92 0x5a 0x9f 0x7d 0xbe 0x28;
  e 0xea 0x7f 0xa5 0x1a 0x37 0xfd 0x90 0xf3 0x5a;
  e 0xe2 0x70 0x75 0x95 0x7d 0x47 0xb8 0x2e 0x6e;
  e 0xf8 0xf0 0xda 0x92 0xc0 0x8d 0x7a 0xb1 0x00;
  e 0x78 0x62 0x17 0x08 0x82 0x38 0xc0 0x09 0xf6;
  e 0xd1 0x32 0x12 0x34 0xe2 0x7f 0xab 0x66 0xc9;
  e 0x46 0x57 0x8f 0x24 0xf8 0x70 0x1c 0xbc 0xf9;
  e 0x64 0xb2 0x07 0x1b 0x6d 0xf0 0xe6 0xb9 0x04;
  e 0x9e 0x58 0x9a 0xfb 0xea 0x62 0x26 0x13 0x68;
  e 0x5c 0xdf 0x8f 0x2b 0xed 0x65 0x9c 0xa1 0xbb;
  e 0x0c 0xd0 0x9a 0x7c 0xff 0x77 0x3b 0x93 0xb9;
  e 0xf1 0x2f 0x07 0x9b 0x78 0xe5 0x61 0xb6 0xd6;
  e 0xd9 0xaf 0x12 0x29 0xf7 0x6a 0xa4 0xe1 0x88;
  e 0xfa 0xed 0xf8 0xcc 0xb0 0xde 0x45 0x20 0xb3;
  e 0x8d 0xff 0xea 0x71 0x55 0x76 0x5f 0x28 0xaf;
  e 0xfd 0xf8 0xed 0xc4 0x3f 0xd6 0xcd 0xbd 0xb8;
  e 0x47 0x6d 0x78 0x53 0x67 0xdc 0xa0 0x50 0x5d;
  e 0xdd 0x78 0x6d 0x49 0x60 0xc6 0x3d 0xd8 0xde;
  e 0x38 0xe2 0xf7 0x8b 0x10 0x11 0x35 0x4a 0x2b;
  e 0xb7 0xf7 0xe2 0x19 0x02 0x83 0xa8 0xc2 0xbc;
  e 0x9f 0xea 0xff 0xe4 0xcf 0xe3 0xd7 0xb5 0xb0;
  e 0xf3 0x69 0x4c 0x92 0x4b 0x32 0x41 0x14 0x6a;
  e 0x09 0x0e 0x16 0x95 0x99 0x58 0x5e 0x39 0x09;
  e 0x33 0x21 0xd4 0x08 0x4e 0xdf 0x6b 0x7b 0x35;
  e 0xbe 0x31 0x6c 0x1a 0x7e 0x2f 0x8c 0xb3 0x79;
  e 0x2e 0x3c 0xce 0x08 0x54 0x57 0xfe 0xfc 0x32;
  e 0x74 0xee 0x44 0x92 0x43 0xaf 0x5b 0x94 0xaf;
  e 0xb1 0x3e 0xf9 0x1a 0xeb 0xb2 0x1e 0xae 0x57;
  e 0x89 0x8e 0x84 0x95 0x0b 0xd0 0x56 0x36 0xe5;
  e 0x05 0x0c 0x4e 0xaf 0xd7 0xc9 0x9e 0xa7 0x4c;
  e 0xda 0x64 0x43 0xd0 0x3d 0xc3 0xf1 0x42 0xa3;
  e 0xa5 0xd1 0xeb 0x57 0xa8 0xf6 0xd9 0x4d 0xdb;
  e 0x75 0x46 0x0b 0xb2 0x45 0x04 0x5c 0x27 0x43;
  e 0x2a 0xd9 0x7e 0xdf 0x35 0x63 0xd1 0xc5 0x66;
  e 0x17 0x9e 0x54 0x32 0x5f 0xd3 0x0c 0x3a 0x17;
  e 0x72 0x5c 0x99 0x2f 0xcd 0x96 0x46 0xba 0x7e;
  e 0x40 0xf1 0x4b 0x58 0xa0 0xcb 0x64 0xca 0x78;
  e 0x9f 0xf4 0xc4 0x2c 0x50 0x87 0x80 0xe5 0x94;
  e 0x8d 0x73 0xcc 0x23 0xd8 0x87 0x80 0xf0 0xdc;
  e 0x38 0xb4 0x53 0x01 0x28 0x1d 0x87 0x62 0x41;
  e 0xfd 0xa3 0x71 0xe9 0xc2 0x0f 0x1d 0x7f 0xab;
  e 0xdd 0x86 0x8b 0xa6 0xbd 0x80 0x0f 0x65 0xff;
  e 0xfa 0xac 0xe4 0x6e 0x4a 0x0f 0x1d 0x6a 0x93;
  e 0x47 0x06 0x19 0xbb 0x20 0x80 0x0f 0x70 0x17;
  e 0xb7 0xa9 0x49 0x81 0xb5 0x1d 0x87 0x77 0xd9;
  e 0xf7 0x02 0x44 0xf0 0xa2 0x4e 0x7d 0xbf 0x21;
  e 0xe2 0x10 0x4c 0xe5 0x2d 0x54 0x7a 0x30 0x28;
  e 0xea 0xcf 0x16 0x65 0x8a 0x4b 0xb8 0x0d 0x56;
  e 0x6d 0x67 0xf9 0x7f 0x52 0x0b 0x82 0xd2 0x9b;
  e 0xff 0x55 0x84 0x70 0x98 0x43 0x37 0x1f 0x34;
  e 0xf8 0x3f 0xce 0x62 0xe8 0xeb 0x5a 0xe7 0x31;
  e 0x78 0x60 0x6c 0x6a 0xc8 0x99 0x90 0x48 0xb6;
  e 0xed 0xb0 0xd4 0x77 0xef 0x7e 0xc0 0xe0 0x77;
  e 0xe2 0xc2 0x16 0xb8 0x7d 0x88 0x95 0xcc 0x1d;
  e 0xff 0xb5 0xf9 0x82 0xb8 0x9d 0x1a 0x8b 0x16;
  e 0xf8 0x20 0x4c 0x7a 0xc0 0x9d 0x92 0x49 0x65;
  e 0xf7 0x4a 0x84 0x37 0x7a 0x88 0x95 0xc4 0x6d].
Definition B_17 : list aff := [
  e 0xea 0x28 0x6c 0x90 0x37 0x9d 0x1a 0x19 0x7f;
  e 0x6d 0xd8 0xce 0x5a 0x90 0x88 0x08 0xe4 0xa7;
  e 0x78 0x50 0xd4 0xc0 0x82 0x88 0x08 0x71 0xf6;
  e 0xed 0xbd 0x44 0x7d 0x5a 0x9d 0x92 0x53 0x2d;
  e 0xb5 0xb8 0x95 0x8e 0xb3 0x3c 0x65 0xee 0x76;
  e 0xc2 0x7d 0x92 0x69 0x36 0x31 0xf0 0x3c 0x30;
  e 0x28 0x37 0x95 0x0e 0xae 0x21 0x70 0x69 0xa7;
  e 0x50 0x82 0x1a 0x31 0xfc 0xee 0x7f 0x0e 0xde;
  e 0xd8 0x90 0x1a 0x3e 0x7b 0x69 0x6a 0x8e 0x53;
  e 0xbd 0x5a 0x08 0x21 0x14 0x8e 0x62 0x31 0x0b;
  e 0x4a 0x7a 0x92 0xee 0x39 0x3e 0xe5 0x21 0xa0;
  e 0x20 0xc0 0x08 0x3c 0x94 0x0e 0x77 0x3e 0xc7;
  e 0xbd 0x48 0x94 0xd2 0x43 0xf7 0x7b 0xaf 0x1e;
  e 0x28 0x30 0xb3 0xbf 0x7e 0x78 0x39 0x2f 0x9b;
  e 0x50 0x0d 0x7b 0x1f 0x4e 0xed 0xb3 0xdf 0x86;
  e 0xd8 0x1f 0xfc 0x0d 0x54 0xf8 0xae 0x57 0x27;
  e 0xc2 0xe7 0x39 0xe0 0x99 0xea 0x14 0x58 0x5d;
  e 0xb5 0xbf 0xae 0x30 0xeb 0x6d 0x36 0xb2 0x42;
  e 0x4a 0xe0 0x36 0xe7 0x0b 0xff 0x94 0xd0 0xd6;
  e 0x20 0xd2 0x14 0x48 0x4b 0xe2 0xfc 0x32 0xed;
  e 0x13 0xed 0x11 0x23 0x05 0x6d 0xf4 0x7a 0x18;
  e 0xb9 0xe2 0x76 0xa6 0x40 0xed 0x06 0x37 0x3c;
  e 0x93 0xf8 0x83 0x2c 0x17 0x78 0x73 0x7d 0xba;
  e 0xb6 0xf7 0xe3 0xbb 0xda 0xf8 0x86 0xb8 0x17;
  e 0xa1 0xff 0xc6 0xe9 0x75 0xe2 0xac 0x90 0xad;
  e 0x66 0x78 0xd6 0x81 0x2a 0xff 0xb4 0x5a 0xde;
  e 0xe1 0x6d 0xde 0x01 0xa5 0xea 0xa9 0xc0 0x47;
  e 0xbc 0xea 0xdc 0x6e 0x72 0xf7 0xa3 0x82 0xbd;
  e 0x2e 0xee 0xf0 0x10 0xd8 0xec 0x44 0x87 0x28;
  e 0xbe 0x3c 0x62 0xb0 0x28 0x03 0xce 0x1d 0x11;
  e 0xf3 0x8e 0x70 0xcf 0x20 0xdb 0x84 0x80 0x54;
  e 0x33 0x69 0xe5 0x02 0x50 0x79 0x4c 0x87 0x64;
  e 0x89 0x31 0x6a 0x67 0x4a 0x51 0x6c 0x0f 0xc5;
  e 0xb1 0x21 0x77 0x3f 0xb5 0x91 0xd4 0x1d 0x0d;
  e 0x09 0x3e 0x7f 0x60 0xc2 0x59 0xf9 0x0f 0x4f;
  e 0x74 0x0e 0x65 0x55 0xbd 0xc1 0x16 0x80 0x8e;
  e 0xe2 0xbc 0x93 0x04 0xcf 0x2a 0x79 0x1d 0x55;
  e 0xff 0xe1 0xb6 0x63 0x67 0x17 0xdb 0x87 0x2c;
  e 0xed 0xb6 0x66 0xcb 0x02 0x75 0x91 0x0f 0x1d;
  e 0x6d 0x93 0xa1 0xc9 0x3f 0x40 0x59 0x80 0xcc;
  e 0xea 0x66 0xb9 0xf6 0x60 0x05 0xc1 0x87 0x7c;
  e 0x78 0x13 0xbc 0xd3 0xb0 0xda 0x51 0x80 0x80;
  e 0xf7 0xa1 0x13 0x96 0x55 0xa5 0xec 0x1d 0x6b;
  e 0xf8 0xb9 0xe1 0xc3 0x10 0x72 0x03 0x0f 0x3f;
  e 0x1a 0xd2 0xfc 0x39 0x8f 0x6d 0x36 0x46 0xfb;
  e 0x1a 0x48 0x7b 0x36 0x8f 0x78 0x39 0x5c 0x9b;
  e 0x95 0x0d 0xb3 0x94 0x07 0xea 0x14 0xf1 0x15;
  e 0x92 0x30 0x39 0x7b 0x9a 0xe2 0xfc 0x9e 0x1c;
  e 0x95 0x1f 0xae 0x14 0x07 0xff 0x94 0x64 0x06;
  e 0x08 0xe0 0x94 0xae 0x12 0xed 0xb3 0xd9 0xd7;
  e 0x92 0xbf 0x36 0xfc 0x9a 0xf7 0x7b 0x0c 0x4f;
  e 0x08 0xe7 0x14 0xb3 0x12 0xf8 0xae 0xd1 0xf7;
  e 0xb2 0x9c 0xeb 0xd9 0x33 0x84 0xba 0x13 0x5c;
  e 0xdf 0xab 0x4e 0x9e 0xf3 0x6c 0x4d 0xb9 0x0e;
  e 0x58 0xe6 0x99 0x46 0xb1 0x4c 0x42 0xe1 0xbe;
  e 0xd0 0x61 0x0b 0x5c 0xbe 0x44 0xca 0x66 0x5d;
  e 0x57 0xa4 0x54 0x0c 0x74 0xf9 0xc5 0xb6 0x90;
  e 0x2f 0x1c 0x7e 0xd1 0x2e 0x16 0x27 0x93 0xbb;
  e 0x32 0x3b 0x4b 0x64 0x89 0xce 0xa7 0xa1 0xa5;
  e 0xaf 0x26 0x43 0xf1 0x09 0xd4 0x3a 0xbc 0x3f;
  e 0x6e 0x60 0x1a 0x2a 0x56 0x51 0x6c 0xd5 0x8d;
  e 0x23 0x02 0x92 0xda 0xfe 0xec 0x44 0x22 0xb0;
  e 0xa6 0xcf 0x95 0x72 0x5b 0xc1 0x16 0x85 0xe7;
  e 0xbb 0x55 0x95 0x75 0x41 0xdb 0x84 0x97 0xa5].
Definition B_18 : list aff := [
  e 0x01 0x3f 0x08 0x17 0x8c 0x03 0xce 0x6f 0x08;
  e 0xe9 0x67 0x1a 0xa5 0x5e 0x59 0xf9 0x4f 0x1e;
  e 0x2c 0x10 0x92 0x40 0x6b 0x79 0x4c 0xad 0xad;
  e 0x81 0xb0 0x08 0x05 0x1e 0x91 0xd4 0x68 0xc4;
  e 0x70 0x36 0x14 0xae 0xaa 0x89 0x39 0x3b 0xf2;
  e 0x6a 0xb3 0x36 0x7b 0x18 0xbe 0xae 0x61 0xdf;
  e 0xe5 0x14 0x7b 0x39 0xf2 0xf3 0x94 0xab 0x16;
  e 0x62 0xfc 0xb3 0x14 0xc7 0x2e 0x7b 0x1c 0x86;
  e 0x77 0x7b 0xae 0x94 0x5d 0x33 0xfc 0x9c 0xdd;
  e 0x65 0x39 0x94 0xb3 0x25 0x09 0x36 0x26 0xde;
  e 0x7f 0xae 0x39 0xfc 0x0a 0xb1 0xb3 0xe6 0xce;
  e 0xf0 0x94 0xfc 0x36 0xf5 0x74 0x14 0xa4 0x70;
  e 0x55 0x41 0xe5 0xbd 0x7b 0x1a 0x92 0x05 0x60;
  e 0x3f 0x8c 0x6a 0xb5 0x36 0x92 0x1a 0x75 0x06;
  e 0xb0 0x1e 0x7f 0x28 0x39 0x92 0x1a 0x72 0xd6;
  e 0x67 0x5e 0x65 0x4a 0x94 0x08 0x95 0xda 0x11;
  e 0x60 0x56 0x70 0xc2 0x14 0x08 0x95 0x40 0x08;
  e 0x10 0x6b 0x77 0xd8 0xae 0x95 0x08 0xa5 0x07;
  e 0x02 0xfe 0x62 0x50 0xb3 0x95 0x08 0x2a 0x56;
  e 0xcf 0x5b 0xf0 0x20 0xfc 0x1a 0x92 0x17 0xf8;
  e 0x04 0xc4 0xf4 0xf8 0x5a 0x53 0x11 0x44 0xea;
  e 0x96 0xcc 0x73 0xed 0xc0 0x49 0x83 0x4c 0x40;
  e 0x63 0x19 0x06 0xf7 0x7d 0xcc 0x76 0x16 0x69;
  e 0xd3 0xe4 0xac 0xea 0xb8 0x8b 0xc6 0xf9 0x65;
  e 0xf6 0x8b 0x86 0xe2 0x7a 0xc4 0xe3 0x84 0x8a;
  e 0xcb 0x49 0xa9 0x78 0x90 0xe4 0xde 0xce 0xd2;
  e 0xc9 0x71 0xa3 0xff 0x37 0x19 0xdc 0x6c 0x28;
  e 0xc3 0x53 0xb4 0x6d 0x82 0x71 0xd6 0xd4 0xd6;
  e 0x7e 0xf3 0x35 0xf7 0x96 0x87 0x0f 0x26 0x0e;
  e 0x54 0x89 0x5f 0xea 0xf6 0x80 0x1d 0xe6 0xc6;
  e 0x0b 0x33 0x45 0xf8 0xc3 0x1d 0x80 0xa4 0x80;
  e 0x4b 0xb1 0xa0 0x78 0xd3 0x0f 0x87 0x1c 0x38;
  e 0x4e 0x09 0xd7 0xff 0x63 0x80 0x1d 0x61 0xaf;
  e 0x43 0xbe 0x3d 0x6d 0xc9 0x0f 0x87 0x9c 0x19;
  e 0xeb 0x74 0xa8 0xe2 0x04 0x87 0x0f 0x3b 0xe6;
  e 0x99 0x2e 0xcd 0xed 0xcb 0x1d 0x80 0xab 0x20;
  e 0x29 0x58 0x2d 0xa7 0x5f 0x3c 0x7c 0xfa 0x67;
  e 0xfb 0xb2 0x98 0xca 0x3d 0xee 0x9b 0x38 0x06;
  e 0x34 0xd0 0xa2 0x3a 0xd7 0x21 0xfb 0xfd 0x1d;
  e 0x7c 0x2f 0x8a 0x42 0xa0 0x69 0x1b 0xb7 0xd9;
  e 0x1b 0xdf 0xc8 0x27 0xcd 0x0e 0x24 0x8d 0x1f;
  e 0x2b 0x32 0xe8 0xc5 0xa8 0x3e 0x29 0xdd 0xc9;
  e 0x24 0xaf 0xef 0x4d 0x35 0x31 0x34 0x47 0x90;
  e 0x9b 0x57 0x52 0xba 0x45 0x8e 0x2b 0x9f 0xe3;
  e 0xe8 0x63 0xf6 0xb6 0x86 0x24 0x66 0x82 0x83;
  e 0xef 0xf6 0x63 0xb9 0x06 0x2b 0xe1 0x90 0xe9;
  e 0x52 0x96 0x04 0x13 0xf4 0x1b 0xbc 0x37 0x0e;
  e 0x98 0xcb 0xc3 0x66 0xb4 0x7c 0xb9 0x7d 0xd0;
  e 0x2d 0xc9 0xd3 0xa1 0xac 0x34 0x13 0x5a 0x3c;
  e 0x8a 0xc3 0xcb 0xe1 0xa9 0xfb 0xb6 0x7a 0xc4;
  e 0xa2 0xd3 0xc9 0xbc 0xa3 0x29 0x93 0xc0 0xbf;
  e 0xc8 0x04 0x96 0x93 0x73 0x9b 0xa1 0xb8 0xf3;
  e 0x8f 0xbc 0xfd 0x9f 0x80 0x2f 0x8d 0xb8 0x5b;
  e 0x07 0xb6 0xdd 0xb7 0x87 0xd0 0x38 0x7d 0x9c;
  e 0x8f 0xa1 0xfa 0x8d 0x80 0xb2 0x9f 0x37 0x5e;
  e 0x12 0xe1 0xb7 0x47 0x0f 0x57 0xdd 0x82 0x83;
  e 0x12 0x66 0x38 0xdd 0x0f 0xdf 0x47 0x90 0xf5;
  e 0x9a 0x93 0x8d 0xfd 0x1d 0x32 0xfa 0x5a 0x52;
  e 0x07 0xb9 0x47 0x38 0x87 0x58 0xb7 0x7a 0xaa;
  e 0x9a 0x13 0x9f 0xfa 0x1d 0xaf 0xfd 0xc0 0x17;
  e 0x29 0x8b 0xf3 0xf7 0xf2 0x0d 0xa8 0x69 0x25;
  e 0x24 0xcc 0x33 0xf8 0x5d 0xbf 0xcd 0x21 0xe8;
  e 0x7c 0xe4 0x09 0xff 0x25 0x48 0x5f 0x0e 0xee;
  e 0x34 0x19 0x74 0xe2 0xf5 0x1f 0x35 0xee 0x46].
Definition B_19 : list aff := [
  e 0x9b 0x53 0xb1 0x78 0x0a 0xe7 0x3d 0x3e 0xfb;
  e 0x2b 0xc4 0x2e 0xed 0xc7 0x30 0x45 0x3c 0xe6;
  e 0x1b 0x49 0xbe 0x6d 0x18 0xe0 0xa0 0x31 0x79;
  e 0xfb 0x71 0x89 0xea 0xaa 0xd2 0xd7 0x8e 0x01;
  e 0x6e 0xdb 0xc3 0xb7 0x28 0x62 0xe1 0x53 0x91;
  e 0x23 0x03 0xf6 0x47 0xbd 0x65 0xb9 0x8b 0xc8;
  e 0xa6 0xec 0xc9 0xfa 0xc2 0x7f 0xa1 0x71 0xfa;
  e 0xbb 0x79 0xd3 0xfd 0x4a 0x6a 0xbc 0xe4 0xb3;
  e 0x01 0x51 0x96 0x9f 0xd8 0xf0 0x13 0xcc 0x3d;
  e 0xe9 0xc1 0xcb 0x38 0xb5 0x77 0x66 0x49 0x0b;
  e 0x2c 0x91 0x63 0xdd 0x20 0x70 0xb6 0x19 0xb1;
  e 0x81 0x59 0x04 0x8d 0x50 0xe5 0x93 0xc4 0x97;
  e 0x52 0x97 0x73 0x85 0xaf 0x14 0x23 0x5a 0x5e;
  e 0xa2 0x68 0xac 0x6f 0x2f 0xae 0x6e 0x37 0xa2;
  e 0xef 0xd5 0x86 0x4f 0x58 0x36 0xa6 0x7d 0xc2;
  e 0xe8 0x4f 0x06 0xd5 0xd0 0x39 0xbb 0x7a 0xba;
  e 0x2d 0x6f 0xa3 0x68 0xb2 0xb3 0xe9 0xb8 0x29;
  e 0x8a 0xad 0xb4 0x22 0x57 0x7b 0x01 0x90 0xc1;
  e 0x98 0x22 0xa9 0xad 0xdf 0xfc 0x81 0x82 0x9f;
  e 0xc8 0x85 0xf4 0x97 0x32 0x94 0x2c 0xc0 0xf3;
  e 0x02 0x4b 0x9a 0x26 0xb1 0xb9 0x7c 0x9b 0x2f;
  e 0x10 0x43 0x9a 0x3b 0xbe 0xb6 0xfb 0x1b 0x2c;
  e 0x60 0xeb 0x8f 0x1c 0x74 0xe1 0x2b 0x34 0x66;
  e 0x67 0x7e 0x8f 0x9c 0xf3 0x66 0x24 0x29 0x3a;
  e 0xb0 0x54 0x12 0xab 0x89 0x93 0x29 0xfb 0xc0;
  e 0xcf 0x0b 0x07 0xe6 0x33 0xa1 0x9b 0x24 0xcb;
  e 0x3f 0x4e 0x12 0xa4 0x09 0x13 0x34 0x7c 0x4d;
  e 0x55 0x99 0x07 0x61 0x2e 0xbc 0x1b 0x2b 0x19;
  e 0x2d 0xbe 0x53 0xad 0x9f 0xf7 0x01 0x0a 0x14;
  e 0x98 0x2e 0xcc 0x97 0x47 0xea 0x23 0x5d 0x9e;
  e 0xe8 0x09 0x71 0x6f 0x38 0xed 0xe9 0xaa 0xad;
  e 0xa2 0xb1 0x49 0x22 0x8d 0xe2 0x81 0x18 0x86;
  e 0x8a 0x33 0xc4 0x85 0xdd 0xff 0x2c 0xc7 0x97;
  e 0x52 0xf3 0x19 0x4f 0xfd 0x78 0xbb 0xf5 0x03;
  e 0xc8 0x74 0x8b 0xd5 0xfa 0x6d 0xa6 0xf2 0xf3;
  e 0xef 0x89 0xe4 0x68 0xb7 0xf8 0x6e 0x25 0xc6;
  e 0x60 0xbf 0x7b 0x94 0x57 0xa0 0xe0 0xaa 0x57;
  e 0x67 0x30 0xfc 0x14 0xdf 0x3d 0xe7 0x25 0x2a;
  e 0x02 0xd2 0x36 0xae 0x58 0x35 0x1f 0xc7 0x51;
  e 0x10 0x48 0x39 0xb3 0xd0 0xa8 0x0d 0x5d 0x1c;
  e 0x3f 0x0d 0x14 0x39 0xaf 0x45 0x30 0x18 0x38;
  e 0xb0 0x1f 0x94 0x36 0x32 0xcd 0xbf 0x0a 0x96;
  e 0x55 0xe7 0xae 0xfc 0x2f 0xd7 0xd2 0xf2 0x47;
  e 0xcf 0xe0 0xb3 0x7b 0xb2 0x5f 0x48 0xf5 0xd9;
  e 0x9b 0x2c 0x97 0xed 0x91 0xac 0x33 0xaf 0xcc;
  e 0x7c 0x81 0xad 0x6d 0x59 0x06 0xb1 0x57 0xdd;
  e 0x24 0xbb 0xd5 0xe2 0x79 0xb4 0xf3 0x58 0xc9;
  e 0x2b 0xa6 0x4f 0xf7 0xec 0xa9 0x74 0xd0 0xe2;
  e 0x34 0xe9 0x68 0xea 0xc1 0xf4 0x09 0x2f 0x2d;
  e 0xfb 0x01 0x22 0x78 0x51 0x86 0xbe 0xdf 0x38;
  e 0x29 0x6e 0x6f 0xff 0xdb 0x73 0x89 0xb2 0x6a;
  e 0x1a 0xd5 0xa6 0xe2 0x95 0xa3 0xf7 0xd3 0xcc;
  e 0x08 0x6f 0xe9 0xff 0x1a 0xa9 0xea 0xc3 0xa1;
  e 0x95 0x97 0x23 0xed 0x92 0x86 0xf8 0x63 0x48;
  e 0x92 0x22 0x81 0x78 0x08 0xf4 0x6d 0x96 0x16;
  e 0x92 0xad 0x01 0x6d 0x08 0x73 0x78 0x04 0x73;
  e 0x1a 0x4f 0xbb 0xf7 0x95 0xac 0xe2 0xc9 0x8c;
  e 0x08 0x68 0x6e 0xea 0x1a 0xb4 0xff 0xcb 0x81;
  e 0x95 0x85 0x2c 0xf8 0x92 0x06 0xed 0xf6 0x4d;
  e 0xd2 0xe8 0x54 0xab 0xf5 0xda 0x4d 0xa6 0xc3;
  e 0xe0 0xa2 0x43 0x3b 0x25 0x72 0xa7 0xe9 0xec;
  e 0x48 0xef 0x4e 0xa4 0xf2 0x40 0xc5 0xbb 0x45;
  e 0xe7 0x2d 0x4b 0x26 0xaa 0x75 0x3a 0x6e 0xa7;
  e 0x1f 0x52 0xeb 0x1c 0x5d 0x05 0x27 0x2c 0x0f].
Definition B_20 : list aff := [
  e 0x0d 0xc8 0x7e 0x9c 0xc7 0x17 0xba 0x23 0x75;
  e 0xbf 0x98 0x0b 0xe6 0x18 0x2a 0x42 0x01 0xce;
  e 0x2c 0x5b 0x41 0x4c 0x6b 0x59 0x40 0x81 0xcd;
  e 0x01 0x6b 0xfe 0xce 0x8c 0xdb 0x17 0x6e 0x0d;
  e 0x23 0x41 0x5b 0x44 0xfe 0x51 0xda 0x01 0xc6;
  e 0x81 0xfe 0x6b 0xd4 0x1e 0xc1 0x05 0xe9 0xe4;
  e 0x6e 0x1e 0x8c 0x6c 0x56 0x79 0x2a 0xbb 0xed;
  e 0xa6 0x56 0x5e 0x16 0x5b 0x03 0x72 0x23 0xb1;
  e 0xbb 0x5e 0x56 0x84 0x41 0x91 0x75 0x2c 0xa5;
  e 0xe9 0x8c 0x1e 0xf9 0x5e 0xec 0xa5 0xa6 0x1b;
  e 0x5a 0x14 0x0d 0xfc 0xef 0x80 0x15 0x24 0x27;
  e 0x7d 0x36 0xd2 0x94 0x2d 0x0f 0x15 0x29 0x5a;
  e 0x90 0x7b 0xbf 0xb3 0x52 0x87 0x15 0x9b 0xdf;
  e 0xb8 0xb3 0xe0 0x39 0x98 0x1d 0x15 0xfb 0xd2;
  e 0x37 0xae 0xe7 0x36 0x8a 0x1d 0x15 0x7c 0x53;
  e 0xc0 0x94 0x1f 0x7b 0xe8 0x80 0x15 0x2b 0xf7;
  e 0x7a 0x39 0x48 0x14 0xa2 0x0f 0x15 0x34 0x62;
  e 0x82 0xfc 0x30 0xae 0xc8 0x87 0x15 0x1b 0xb6;
  e 0x69 0x0d 0xae 0x36 0xa7 0x19 0xe0 0x34 0x9a;
  e 0x31 0xe0 0x14 0xfc 0x27 0x53 0x1f 0x9b 0xe1;
  e 0xee 0x1f 0xb3 0x39 0x3a 0x8b 0xe7 0x29 0x16;
  e 0x21 0xbf 0x39 0x14 0x4d 0xc4 0xd2 0x2b 0x43;
  e 0x3c 0x30 0x36 0x94 0xc5 0xcc 0x48 0x24 0x19;
  e 0x8e 0xd2 0x7b 0xb3 0xca 0xe4 0x30 0x7c 0xd9;
  e 0x0e 0x48 0xfc 0xae 0x42 0x71 0xbf 0xfb 0x36;
  e 0x3e 0xe7 0x94 0x7b 0xba 0x49 0x0d 0x1b 0xd8;
  e 0xaf 0xf7 0xd5 0x06 0x64 0x15 0x0f 0xee 0x0a;
  e 0x32 0xe2 0x4f 0x86 0xf1 0x15 0x0f 0x69 0xb3;
  e 0x2f 0x78 0xad 0xa9 0xd9 0x15 0x87 0x31 0xd1;
  e 0xdf 0xed 0x85 0x73 0x0c 0x15 0x80 0x21 0x10;
  e 0x58 0xea 0x6f 0xac 0x5c 0x15 0x1d 0x0e 0xa2;
  e 0xb2 0x6d 0x22 0xb4 0xd1 0x15 0x87 0x3e 0x71;
  e 0x57 0xf8 0x97 0xf4 0x9e 0x15 0x80 0x3c 0x88;
  e 0xd0 0xff 0x68 0xa3 0x46 0x15 0x1d 0x8e 0x23;
  e 0x53 0x9d 0xd3 0xbc 0x77 0x10 0x96 0xc4 0xb5;
  e 0x49 0x9d 0xc9 0xa1 0x62 0x02 0x04 0xcc 0xb7;
  e 0x19 0x9d 0x04 0x93 0x65 0x67 0xd3 0x71 0x94;
  e 0x8b 0x9d 0x96 0x13 0x70 0x60 0xc9 0xe4 0x25;
  e 0xcc 0x88 0xc3 0xe1 0xe5 0x55 0xf6 0x19 0x8f;
  e 0xc4 0x88 0xcb 0x66 0xf0 0xcf 0x63 0x8b 0x98;
  e 0xe4 0x88 0x63 0xb6 0x7f 0xb0 0xc3 0x49 0xa3;
  e 0x71 0x88 0xf6 0xb9 0x6a 0x3f 0xcb 0x53 0x07;
  e 0x80 0xc7 0xef 0x0c 0x88 0x8a 0x9e 0x89 0x59;
  e 0x80 0x5d 0xe8 0x9e 0x88 0x98 0x0c 0x09 0x0a;
  e 0x87 0x0a 0xc8 0xd9 0x9d 0x2d 0xd1 0x74 0x1f;
  e 0x1d 0xaa 0x8a 0x5c 0x88 0xe8 0x46 0x33 0xda;
  e 0x0f 0xf2 0xa2 0x64 0x9d 0xc8 0xf1 0xb1 0xca;
  e 0x1d 0x25 0x98 0x46 0x88 0xef 0x5c 0x2e 0x9a;
  e 0x0f 0xf5 0x2d 0xf1 0x9d 0x52 0x64 0xbe 0xfc;
  e 0x87 0x18 0x52 0xd1 0x9d 0xa2 0xd9 0xf3 0x3a;
  e 0x76 0x13 0xa1 0x59 0x84 0x6a 0xbc 0xff 0x0a;
  e 0xc6 0xb9 0x66 0x91 0x6c 0x62 0xe1 0x78 0x09;
  e 0x11 0xe1 0xb9 0xc1 0x4c 0x70 0xb6 0xe2 0xa8;
  e 0x83 0x66 0xb6 0xdb 0x44 0x65 0xb9 0xf7 0x68;
  e 0xdc 0xb6 0xe1 0x03 0xf9 0x77 0x66 0x6d 0x33;
  e 0xe3 0x93 0xbc 0x51 0x16 0x7f 0xa1 0xea 0xc2;
  e 0xd6 0xa1 0x93 0x79 0xce 0xf0 0x13 0xf8 0xcc;
  e 0xde 0xbc 0x13 0xec 0xd4 0xe5 0x93 0xed 0xfe;
  e 0x81 0x96 0x79 0x93 0x50 0x7a 0x8d 0x45 0xb7;
  e 0xbb 0xc9 0x51 0xbc 0x4a 0x90 0xfd 0x5f 0xb3;
  e 0x01 0x04 0xec 0x13 0xd8 0x7d 0x9f 0xcd 0x4e;
  e 0xe9 0xc3 0x91 0x66 0xb5 0xc0 0x38 0xa0 0x78;
  e 0x6e 0xcb 0x03 0xe1 0x28 0x5a 0xb7 0x3d 0xc7;
  e 0x2c 0xf6 0xdb 0xb6 0x20 0x37 0xdd 0x35 0xe7].
Definition B_21 : list aff := [
  e 0x23 0x63 0xc1 0xb9 0xbd 0xb8 0x47 0xa8 0xa8;
  e 0xa6 0xd3 0x59 0xa1 0xc2 0x82 0xfa 0xd7 0xba;
  e 0x58 0xbc 0x96 0xa1 0xe9 0xaf 0xfd 0x50 0xff;
  e 0xd0 0xa1 0x04 0xbc 0x6e 0x32 0xfa 0xd8 0x52;
  e 0xb2 0xe1 0xf6 0x66 0x81 0x58 0xb7 0x20 0x13;
  e 0xdf 0x13 0xc9 0x93 0x2c 0xb2 0x9f 0x4a 0x37;
  e 0x2f 0x66 0x63 0xe1 0x01 0xd0 0x38 0xbd 0xec;
  e 0xaf 0xb6 0xc3 0xb9 0xa6 0x57 0xdd 0xb5 0x02;
  e 0x57 0x93 0xd3 0x13 0x23 0x2f 0x8d 0xc2 0xe2;
  e 0x32 0xb9 0xcb 0xb6 0xbb 0xdf 0x47 0x28 0x85;
  e 0x3c 0xac 0x5f 0x09 0xf9 0xb1 0xe9 0xdd 0x05;
  e 0x21 0xa3 0xd7 0x89 0x6c 0xbe 0x6e 0x47 0x3e;
  e 0x3e 0x86 0xa8 0xf3 0x84 0x89 0xbb 0x9f 0xeb;
  e 0xee 0xb4 0x3d 0xb1 0xd4 0x33 0x81 0xfd 0x4f;
  e 0x8e 0xf4 0x45 0x2e 0x44 0x74 0x23 0x38 0x8a;
  e 0x31 0x06 0x35 0x74 0x16 0x09 0xa6 0x8d 0x97;
  e 0x69 0xa9 0xa0 0xbe 0xce 0x2e 0x01 0xfa 0xed;
  e 0x0e 0x73 0xcd 0x33 0x4c 0xf3 0x2c 0xb7 0x6f;
  e 0x11 0x7a 0x10 0x20 0x77 0x9f 0x7d 0xa0 0xb0;
  e 0xde 0xc0 0xb0 0x50 0x7f 0xb7 0x5a 0xd7 0xd0;
  e 0xdc 0x82 0x67 0xb5 0x65 0xfd 0x90 0xa8 0x62;
  e 0x76 0x37 0x55 0x4a 0xe5 0x47 0xb8 0x45 0x3f;
  e 0xd6 0x5a 0x3f 0xd8 0x6a 0x38 0xc0 0x5f 0xa7;
  e 0xc6 0x90 0x60 0x28 0x70 0xfa 0x82 0x35 0x73;
  e 0x83 0x7d 0x02 0xbd 0x62 0x8d 0x7a 0x3d 0x21;
  e 0x69 0x3a 0xf2 0x3b 0xd6 0xc1 0xf5 0x46 0xc7;
  e 0xee 0xa7 0xf5 0x26 0xde 0xdb 0xf2 0x5c 0x07;
  e 0x8e 0x42 0xaa 0x61 0x83 0x59 0x25 0xd9 0xdd;
  e 0x31 0xba 0x18 0x1c 0xe3 0x91 0x0a 0x9e 0xa4;
  e 0x0e 0xca 0x25 0xe6 0x11 0x51 0xaa 0xd1 0x27;
  e 0x21 0xc5 0x5d 0xab 0xc6 0xec 0xc7 0xf1 0x2b;
  e 0x3e 0x27 0x0a 0x9c 0x76 0x03 0x18 0x0c 0xf9;
  e 0x3c 0x4d 0xc7 0xa4 0xdc 0x79 0x5d 0x64 0x4c;
  e 0xde 0x8f 0xd1 0x1c 0xa1 0xf1 0xc8 0xa8 0x82;
  e 0x11 0x12 0x0c 0xa4 0x66 0x46 0xe8 0xd7 0xc2;
  e 0xc6 0x07 0x46 0xe6 0xb6 0x9e 0x8a 0x45 0x4f;
  e 0xd6 0x8f 0xd9 0x9c 0xbc 0x64 0x52 0x35 0x95;
  e 0x83 0x12 0x9e 0xab 0xe1 0x5c 0xef 0x5f 0x6b;
  e 0xe3 0x9a 0x64 0x3b 0x13 0xd1 0x2d 0x3d 0xa9;
  e 0x76 0x9a 0xf1 0x26 0x93 0xd9 0xa2 0xa0 0x02;
  e 0xdc 0x07 0x5c 0x61 0xb9 0x0c 0x98 0xcd 0x5a;
  e 0x38 0x22 0x3d 0x87 0x28 0xa3 0x01 0x5a 0x04;
  e 0x8d 0x85 0xcd 0x80 0xd8 0xa9 0x23 0x7d 0xea;
  e 0xfa 0x6f 0x5f 0x1d 0x4a 0x86 0x6e 0x90 0x93;
  e 0x47 0xd5 0x35 0x0f 0x20 0x73 0xbb 0x37 0x52;
  e 0x9f 0x97 0x45 0x80 0x50 0xb4 0x2c 0x7a 0xc2;
  e 0xdd 0x4f 0xa8 0x0f 0xbd 0xf4 0xa6 0xb8 0xbf;
  e 0xb7 0xad 0xa0 0x87 0xb5 0xac 0x81 0xc0 0xef;
  e 0xfd 0x68 0xd7 0x1d 0xc2 0x06 0xe9 0x82 0xbd;
  e 0x75 0xbf 0xd2 0x0d 0x9b 0x5f 0x48 0x58 0x41;
  e 0xa5 0x1f 0xe7 0x48 0x2b 0xa0 0xe0 0x2f 0x87;
  e 0x40 0xe7 0x0d 0xbf 0x7c 0x35 0x1f 0xaf 0x70;
  e 0x05 0x48 0xbf 0xe7 0x34 0x45 0x30 0x57 0x19;
  e 0x2a 0x0d 0xe0 0xd2 0x24 0x3d 0xe7 0xb2 0x12;
  e 0xda 0xe0 0x1f 0x30 0xfb 0xa8 0x0d 0x32 0xed;
  e 0x17 0xd2 0x30 0xe0 0x29 0xcd 0xbf 0xdf 0x7e;
  e 0x72 0x30 0x48 0x1f 0x1b 0xd7 0xd2 0xd0 0x2e;
  e 0x36 0x61 0x9b 0x8a 0x52 0xf9 0x25 0x87 0xd8;
  e 0x7b 0xab 0x34 0xe8 0xa2 0x44 0xc7 0x0f 0xb7;
  e 0xb3 0x1c 0x24 0x52 0xef 0xd4 0x0a 0x80 0x84;
  e 0xae 0x9c 0x2b 0xc8 0xe8 0xce 0x18 0x80 0xd4;
  e 0xfc 0xa4 0x29 0xef 0x2d 0x4c 0x5d 0x0f 0x3d;
  e 0x14 0x3b 0x7c 0xa2 0x8a 0x16 0xf5 0x1d 0x13;
  e 0x94 0x26 0xfb 0x2d 0x98 0x84 0xf2 0x1d 0xa7].
Definition B_22 : list aff := [
  e 0x39 0xe6 0x1b 0x98 0xc8 0x6c 0xaa 0x87 0xb6;
  e 0x5e 0xaa 0x42 0x99 0xed 0xa1 0x9b 0x8f 0x4a;
  e 0x6b 0xc7 0x4d 0x4e 0xff 0x93 0x29 0x9a 0x58;
  e 0xfe 0x5d 0xc5 0x54 0xea 0x13 0x34 0x9a 0xbc;
  e 0x8c 0x0a 0x27 0x7e 0xf7 0xe1 0x2b 0x12 0x0f;
  e 0x1e 0x18 0xba 0xeb 0xe2 0x66 0x24 0x12 0xbb;
  e 0x5b 0xf2 0x3a 0x43 0x6d 0xb9 0x7c 0x07 0xc7;
  e 0x41 0xf5 0xa7 0x4b 0x78 0xb6 0xfb 0x07 0xe5;
  e 0x56 0x25 0xca 0x0b 0xf8 0xbc 0x1b 0x8f 0x38;
  e 0x97 0x92 0x10 0xf0 0x21 0xc9 0xbd 0xde 0xad;
  e 0x85 0x92 0x02 0xe5 0x3c 0xd3 0x20 0xd6 0xaf;
  e 0xad 0x08 0xb0 0x62 0x3e 0xf6 0xd8 0xdc 0xd0;
  e 0x6f 0x1a 0x60 0x7f 0x8e 0x04 0xb5 0x76 0x70;
  e 0x22 0x08 0x3f 0x77 0x31 0x63 0x50 0xc6 0x76;
  e 0xd5 0x95 0x55 0x65 0x69 0xcb 0xc2 0x11 0xb1;
  e 0x68 0x1a 0x67 0x6a 0x0e 0x96 0x28 0xe3 0x7f;
  e 0x4f 0x95 0xcf 0x70 0xee 0xc3 0x4a 0x83 0x1a;
  e 0x4a 0xca 0x61 0x07 0x73 0x96 0x46 0x52 0x96;
  e 0xc2 0x42 0xe6 0x07 0xf4 0x04 0x5c 0xc8 0x7b;
  e 0x20 0xa7 0x3b 0x9a 0xb4 0xc3 0xf1 0x8a 0xa3;
  e 0xd8 0xc5 0xa4 0x12 0xa3 0xc9 0x9e 0x2d 0x3c;
  e 0xbd 0x3a 0x26 0x9a 0xa9 0xcb 0x64 0x98 0x61;
  e 0x28 0x27 0x1c 0x8f 0x86 0xf6 0xd9 0xef 0xe3;
  e 0x50 0x4d 0xab 0x12 0xac 0xd3 0x0c 0xa2 0xff;
  e 0xb5 0xba 0x9c 0x8f 0x06 0x63 0xd1 0xe8 0x0f;
  e 0x3a 0xd6 0x22 0x49 0xa1 0x76 0xad 0xeb 0xf7;
  e 0x4d 0xdc 0x68 0xe4 0xb6 0x83 0x6f 0x0b 0xbd;
  e 0x27 0x76 0xd5 0x8b 0x13 0xde 0x4f 0x43 0x88;
  e 0xca 0x11 0x97 0xcc 0xe1 0xdc 0x85 0x54 0x5f;
  e 0xc5 0xc6 0x6f 0x71 0xb9 0x11 0x68 0x99 0x28;
  e 0x42 0x83 0x85 0xc4 0x66 0xc6 0x97 0x4e 0x97;
  e 0xba 0xe3 0x4f 0x19 0x93 0xd6 0xd5 0x4b 0x72;
  e 0xa7 0xde 0xad 0x53 0xbc 0xe3 0x22 0x7e 0x50;
  e 0x79 0x09 0xe9 0xc6 0x0e 0xe3 0xd7 0x67 0x28;
  e 0xdb 0xb1 0x81 0xd6 0x3e 0xdc 0xa0 0xb0 0x15;
  e 0x59 0x2e 0x23 0x11 0x3c 0xd6 0xcd 0x02 0x18;
  e 0x03 0xf3 0xbb 0xe3 0x69 0x11 0x35 0x55 0x92;
  e 0x91 0x74 0xa6 0x76 0xee 0x83 0xa8 0xcf 0x4d;
  e 0xc1 0xbe 0x01 0xde 0x31 0xc6 0x3d 0x3f 0x36;
  e 0xec 0x89 0x6e 0xdc 0x8e 0x76 0x5f 0x60 0xc6;
  e 0x51 0x33 0x2c 0x83 0x21 0xde 0x45 0x10 0x0a;
  e 0xae 0x0c 0x5d 0x54 0xd0 0x92 0x12 0xa8 0xfe;
  e 0x7b 0xf1 0xf2 0x43 0x2f 0x95 0x9a 0xd7 0xc4;
  e 0xb3 0x9e 0xc7 0x4e 0x58 0x92 0x12 0x35 0x97;
  e 0xfc 0x64 0xf5 0x4b 0xb2 0x95 0x9a 0x5f 0x0d;
  e 0x14 0x46 0xaa 0x99 0x57 0x1a 0x07 0xa0 0x42;
  e 0x36 0xd9 0x18 0xeb 0xaf 0x08 0x8f 0x45 0xf9;
  e 0x39 0xd1 0x0a 0x7e 0x32 0x08 0x8f 0xcd 0xe0;
  e 0x94 0x5c 0x25 0x0b 0xdf 0x1a 0x07 0x3d 0xfb;
  e 0x68 0x2f 0x46 0x98 0x66 0x4e 0xb2 0x85 0x51;
  e 0xd5 0x58 0x64 0xa2 0xbc 0x7e 0xd0 0xad 0xf5;
  e 0x85 0x32 0x0c 0xef 0xb9 0x99 0xaf 0x6f 0xdc;
  e 0x22 0xdf 0xd1 0x52 0x13 0x43 0x57 0xd5 0x0f;
  e 0x4f 0xd0 0xf1 0x2d 0xa1 0xeb 0x58 0x22 0x02;
  e 0xad 0x57 0xd9 0xc8 0x93 0x4b 0xdf 0x4f 0xd4;
  e 0x97 0xaf 0x9e 0xe8 0xb6 0x0b 0x32 0x68 0xba;
  e 0x6f 0xb2 0x5c 0x8a 0xe1 0x54 0x2f 0x97 0x1b;
  e 0x9e 0x38 0xb6 0xcb 0x74 0x8f 0x88 0xf9 0x35;
  e 0x64 0x8d 0xbc 0x04 0x09 0x12 0x9d 0xd4 0x58;
  e 0xd9 0xfa 0x93 0xc9 0x2e 0x07 0x9d 0x16 0xc9;
  e 0x5c 0xdd 0xe1 0x63 0xb1 0x9a 0x88 0x4c 0xec;
  e 0x46 0x47 0x66 0xf6 0xbe 0x9a 0x88 0x44 0x9c;
  e 0x0c 0xb7 0xb9 0xc3 0xf3 0x8f 0x88 0x6c 0xfc;
  e 0xf1 0x9f 0xa1 0x96 0x89 0x12 0x9d 0xce 0xc0].
Definition B_23 : list aff := [
  e 0xd1 0xfd 0x13 0xd3 0x33 0x07 0x9d 0x84 0xe8;
  e 0x36 0xaa 0x0b 0x25 0x52 0x60 0x8a 0xb1 0xce;
  e 0xb3 0x18 0x7e 0x0a 0xef 0x3f 0x52 0x33 0xa4;
  e 0x7b 0x5d 0x4e 0xc7 0xa2 0x10 0xe8 0x74 0x97;
  e 0x94 0xf5 0x43 0xf2 0x98 0xcf 0x2d 0x89 0xf1;
  e 0x14 0xf2 0x4b 0xf5 0x8a 0x55 0xa2 0x09 0x76;
  e 0xae 0x0a 0xeb 0x18 0xe8 0xb0 0xc8 0x2e 0x82;
  e 0x39 0x25 0x99 0xaa 0xc8 0x67 0x98 0xbe 0xb6;
  e 0xfc 0xc7 0x54 0x5d 0x2d 0x02 0xef 0xf3 0x4e;
  e 0x26 0x87 0xa9 0xde 0xec 0x06 0xb1 0xba 0x14;
  e 0xa4 0x1d 0xa3 0xdc 0x03 0xf4 0x09 0x42 0x65;
  e 0xe6 0x80 0xf4 0x11 0xc1 0xac 0x33 0x4d 0x3d;
  e 0x3b 0x87 0xb4 0xd6 0x79 0x86 0xbe 0x27 0x19;
  e 0x1c 0x0f 0x86 0xe3 0x51 0xa9 0x74 0x3a 0x5b;
  e 0x9c 0x0f 0x06 0x76 0x59 0xb4 0xf3 0xa7 0xe8;
  e 0xab 0x1d 0xac 0xc6 0x91 0x73 0x89 0xca 0x6a;
  e 0x61 0x80 0x73 0x83 0xdb 0xa3 0x2e 0xc5 0x8c;
  e 0xf1 0xea 0xc6 0x71 0x0b 0x36 0x09 0x84 0xa0;
  e 0xd1 0xf8 0x11 0xcc 0x4e 0x7b 0x2e 0xd4 0x90;
  e 0x64 0xff 0xdc 0xe4 0x99 0x39 0x89 0x16 0x3b;
  e 0x9e 0xe2 0xe3 0x19 0x43 0x94 0xf3 0x44 0x18;
  e 0x0c 0xf7 0x76 0x8b 0x4b 0x14 0x74 0x4c 0xae;
  e 0x46 0x6d 0xd6 0x49 0x7e 0xb3 0xb1 0x6c 0xd8;
  e 0xd9 0xed 0x83 0xc4 0x54 0xfc 0x33 0xce 0xb4;
  e 0x5c 0x78 0xde 0x53 0xeb 0xae 0xbe 0xf9 0xd1;
  e 0x94 0xaf 0x32 0x5d 0x4b 0x40 0xc5 0xe2 0x8c;
  e 0x39 0x58 0xd0 0xf2 0x0b 0x75 0x3a 0xff 0xf6;
  e 0xb3 0x2f 0xb2 0x25 0xeb 0xa5 0xca 0x6d 0xe1;
  e 0x7b 0xdf 0x57 0x18 0x54 0x17 0xba 0xf8 0x84;
  e 0xfc 0x57 0xdf 0x0a 0x4e 0x05 0x27 0xed 0x66;
  e 0x36 0xd0 0x58 0xf5 0x99 0x72 0xa7 0xea 0x9c;
  e 0x14 0x32 0xaf 0xc7 0x43 0xda 0x4d 0xf7 0x7a;
  e 0xae 0xb2 0x2f 0xaa 0x7e 0x2a 0x42 0x78 0x9f;
  e 0xc1 0x40 0xbd 0x7d 0x22 0x42 0x4c 0x3a 0x29;
  e 0xdb 0xda 0x20 0x7a 0xad 0xca 0x44 0xa7 0x44;
  e 0x91 0x2a 0xb5 0x82 0x4f 0x4d 0x6c 0xba 0x38;
  e 0x03 0xa5 0x28 0x90 0xd5 0xc5 0xf9 0x27 0xd7;
  e 0x59 0x75 0xc2 0xb8 0x85 0xba 0x84 0x42 0x35;
  e 0x51 0x72 0x4a 0x37 0x97 0x27 0x16 0xca 0x02;
  e 0xec 0x05 0xd8 0x5a 0x6f 0x3a 0xd4 0xc5 0xa8;
  e 0x79 0x17 0x50 0xc0 0x68 0xa7 0xce 0x4d 0x1d;
  e 0x38 0xee 0x02 0x69 0xbe 0x0b 0x41 0xa2 0x3b;
  e 0x47 0x31 0x60 0x3e 0xf3 0x4e 0x1e 0xc8 0x7b;
  e 0xfd 0x21 0xb0 0x3c 0x09 0x43 0xfe 0xef 0x8f;
  e 0xfa 0x3c 0x3f 0x21 0x89 0x4b 0x6b 0xe8 0xa5;
  e 0x8d 0x0e 0xcf 0x8e 0x2e 0x7e 0x56 0x8a 0x9d;
  e 0xdd 0x3e 0x67 0x31 0x74 0x54 0x8c 0x52 0xf0;
  e 0x9f 0x8e 0x55 0x0e 0x33 0xeb 0x5e 0x98 0xe9;
  e 0xb7 0x69 0x10 0xee 0xb1 0x99 0x5b 0x2d 0xee;
  e 0x93 0x16 0x75 0x65 0xcc 0x18 0x72 0x98 0xf5;
  e 0xa1 0xce 0x05 0x62 0xe4 0xf2 0x17 0xef 0xb1;
  e 0xe1 0x4c 0xda 0xe5 0x49 0x25 0x40 0xa2 0x05;
  e 0x66 0x44 0x40 0xf0 0x53 0xaa 0xda 0x2d 0xa2;
  e 0xb6 0xf9 0x2a 0x7f 0x8b 0xc7 0xa5 0xc8 0x7b;
  e 0xbc 0xd4 0x17 0x77 0x71 0xf5 0x05 0xe8 0xb9;
  e 0xb9 0x6c 0xa5 0x6a 0x19 0x5d 0x2a 0x52 0x14;
  e 0x13 0x84 0x72 0x70 0xc4 0x0a 0x75 0x8a 0x35;
  e 0xba 0x96 0xec 0xd3 0xcc 0x0b 0xfa 0xcf 0x03;
  e 0xa7 0xc9 0x59 0x96 0x71 0x54 0x8d 0xb0 0x2b;
  e 0x3a 0xd3 0x51 0x04 0xe4 0x4e 0x9f 0x3f 0xb2;
  e 0xc5 0x63 0xdb 0xcb 0x19 0xeb 0xb7 0x60 0x32;
  e 0x4d 0xf6 0xc1 0xc3 0x8b 0x7e 0x38 0x67 0xfc;
  e 0x42 0xc3 0x03 0x63 0x53 0x4b 0x47 0x02 0xc4;
  e 0xca 0xcb 0x91 0xf6 0x49 0x43 0xdd 0x10 0x76].
Definition B_24 : list aff := [
  e 0x27 0x04 0x79 0xc9 0xc4 0x99 0xfd 0x55 0xe6;
  e 0xff 0x46 0x07 0x25 0x47 0x5d 0x42 0xcc 0x4f;
  e 0xea 0x5c 0x07 0xaa 0xdd 0xc7 0xca 0xc4 0x51;
  e 0xf7 0x64 0x9a 0xf2 0x8d 0x18 0xa7 0x49 0x35;
  e 0x78 0xd9 0x8f 0x0a 0xfa 0xf2 0xba 0x8b 0xe0;
  e 0xed 0x0c 0x12 0xc7 0xb7 0x25 0xc5 0xe4 0x55;
  e 0xe2 0xf1 0x9a 0xf5 0x9f 0x0a 0x3a 0x53 0x77;
  e 0x6d 0xd1 0x8f 0x18 0xfd 0xf5 0x27 0x19 0xe3;
  e 0xf8 0x9e 0x12 0x5d 0x38 0xaa 0x4d 0x71 0x0a;
  e 0x17 0xb3 0xfc 0xbf 0x29 0x85 0xe0 0xc8 0x7b;
  e 0x05 0xae 0x7b 0x30 0x34 0x97 0xe7 0x52 0x4a;
  e 0x2a 0x36 0xb3 0xe7 0x24 0x22 0xd2 0x98 0x57;
  e 0x40 0x7b 0x14 0x1f 0x7c 0xd5 0xbf 0xef 0x63;
  e 0x75 0x14 0x36 0x48 0x9b 0x6f 0x0d 0x2d 0x04;
  e 0x72 0x94 0x39 0xd2 0x1b 0x68 0x1f 0xa2 0x5d;
  e 0xda 0xfc 0x94 0x0d 0xfb 0x4f 0x30 0xe8 0x8d;
  e 0xa5 0x39 0xae 0xe0 0x2b 0xad 0x48 0x8a 0xd1;
  e 0x45 0x77 0x5a 0xb0 0xab 0x1c 0x21 0x48 0xfc;
  e 0x5f 0x70 0xb8 0x55 0x61 0x26 0x8e 0xbf 0xc7;
  e 0xcd 0x62 0xc0 0x3f 0xa4 0x9c 0x3c 0xd2 0x49;
  e 0xa0 0x7f 0x90 0x67 0x9c 0x61 0x3e 0x1f 0x42;
  e 0x3d 0x6a 0x82 0x60 0x1c 0xe6 0x31 0x0d 0xce;
  e 0x35 0xe5 0x7d 0x10 0x3b 0xa4 0x69 0xe7 0xaf;
  e 0xa8 0xf0 0x7a 0x02 0x26 0xab 0xee 0xe0 0x2d;
  e 0xd7 0x65 0x37 0xcf 0xe6 0x3b 0x0e 0x30 0x7c;
  e 0xa0 0x1c 0x2b 0x18 0x59 0x3b 0x24 0xa6 0x0f;
  e 0xd7 0x61 0x1b 0xaa 0xc1 0xab 0x9b 0x23 0x7f;
  e 0x45 0xa4 0x34 0xc7 0x91 0x61 0x29 0xe9 0xb8;
  e 0xcd 0xab 0x29 0x5d 0x03 0xe6 0x34 0x6e 0x25;
  e 0x5f 0xe6 0x9b 0x25 0xdb 0xa4 0x1b 0x2c 0x8d;
  e 0x3d 0x9c 0x24 0x0a 0x51 0x26 0x2b 0xbb 0xcf;
  e 0x35 0x26 0x7c 0xf5 0x79 0x1c 0xfb 0x81 0x9d;
  e 0xa8 0x3b 0xfb 0xf2 0xec 0x9c 0x7c 0x01 0x32;
  e 0x79 0x55 0x56 0xb8 0x11 0xd1 0xcf 0x25 0x32;
  e 0x51 0x3f 0xfe 0xc0 0xc6 0xf1 0xb0 0x5d 0x1a;
  e 0x03 0x02 0x5b 0x7a 0xd6 0x46 0x10 0xf2 0x81;
  e 0x91 0x10 0x41 0x7d 0xde 0x5c 0x02 0xf5 0x01;
  e 0xdb 0x60 0x8c 0x82 0x76 0x0c 0x67 0x0a 0x38;
  e 0xec 0xcf 0x5e 0x37 0x83 0xd9 0x55 0xaa 0xe9;
  e 0x59 0xb0 0x6b 0x5a 0xdc 0x64 0x3f 0xc7 0x6d;
  e 0xc1 0x67 0x1e 0x90 0xe3 0x9e 0x60 0x18 0x14;
  e 0xfe 0xe4 0x6f 0x1d 0x60 0x6d 0x09 0x47 0xf8;
  e 0x41 0x49 0xad 0x87 0xb0 0xf8 0xbe 0xfd 0xc5;
  e 0x1e 0x8b 0x4f 0x0f 0xcf 0xff 0xf3 0x8d 0xb5;
  e 0x56 0xc4 0x97 0x80 0x10 0xf7 0x2e 0xb7 0x4d;
  e 0x6b 0x71 0x68 0x1d 0x67 0x78 0x89 0xdd 0x3b;
  e 0x8c 0x19 0xd5 0x0f 0x55 0xea 0x74 0x9f 0x5f;
  e 0x5e 0xcc 0x85 0x80 0x02 0xe2 0x33 0x38 0x4c;
  e 0x5b 0x53 0x22 0x87 0x3f 0xed 0xb1 0xfa 0xed;
  e 0xa0 0x05 0x77 0x62 0xf9 0xdd 0xfe 0x5f 0x13;
  e 0xd7 0xa5 0x7f 0x6a 0x16 0x8d 0x8c 0x35 0x51;
  e 0xcd 0xda 0xf0 0xe5 0xce 0xfa 0x41 0xa0 0x6a;
  e 0x3d 0x17 0x62 0x77 0x6c 0x47 0x6b 0xd7 0x9c;
  e 0xa8 0x72 0x65 0x70 0x44 0x38 0x56 0x45 0x1d;
  e 0x5f 0x2a 0x6a 0x7f 0x84 0x9f 0x1e 0xa8 0x9a;
  e 0x35 0x75 0x70 0x65 0x4c 0xb7 0x5e 0xcd 0x98;
  e 0x45 0x40 0xe5 0xf0 0xd4 0xfd 0x5b 0x3d 0xab;
  e 0x44 0xbf 0xe0 0xe7 0x26 0x86 0xae 0xab 0x5a;
  e 0xce 0xe7 0xd2 0x48 0xa4 0x73 0x39 0x9c 0x4b;
  e 0x4c 0x30 0xe7 0xe0 0x3b 0x06 0xb3 0xa4 0x1e;
  e 0x16 0x0d 0x30 0xbf 0xe6 0xa3 0x7b 0x3b 0xbe;
  e 0x84 0x1f 0xbf 0x30 0x61 0xac 0xfc 0x26 0x04;
  e 0x6c 0x48 0x0d 0x1f 0x1c 0xb4 0x94 0xe6 0x2a;
  e 0xd4 0xe0 0x48 0xd2 0xab 0xf4 0x36 0x1c 0x7e].
Definition B_25 : list aff := [
  e 0xf9 0xd2 0x1f 0x0d 0x9c 0xa9 0x14 0x61 0xe1;
  e 0xb4 0xd8 0x17 0x21 0x67 0xdd 0xfe 0x68 0xaa;
  e 0x86 0xc2 0x72 0x8e 0x10 0xb7 0x5e 0x97 0xb9;
  e 0xa9 0x50 0x05 0x3c 0x60 0x47 0x6b 0x6f 0xec;
  e 0xac 0x28 0x2a 0x3e 0xcf 0x8d 0x8c 0x4f 0x70;
  e 0xa3 0xb5 0xa5 0x31 0x55 0x9f 0x1e 0xd5 0x1b;
  e 0x73 0xbd 0xda 0x69 0xb0 0xfd 0x5b 0xad 0x93;
  e 0xf4 0x20 0x40 0xee 0x3f 0xfa 0x41 0x22 0x6a;
  e 0x06 0x4a 0x75 0x0e 0x02 0x38 0x56 0x85 0x6d;
  e 0x56 0x14 0x15 0x1f 0x46 0xc6 0xe7 0xa7 0x06;
  e 0x1e 0x39 0x15 0xd2 0xd1 0xde 0x30 0x42 0xd1;
  e 0x41 0x7b 0x15 0x30 0xf1 0x76 0x48 0x4d 0xc5;
  e 0xfe 0xb3 0x15 0xe7 0x9e 0x83 0x0d 0x27 0xdd;
  e 0x5b 0xfc 0x15 0xbf 0x64 0xe3 0xd2 0xc5 0x9a;
  e 0x5e 0x94 0x15 0x0d 0x5c 0xdc 0xe0 0x3a 0x47;
  e 0x6b 0xae 0x15 0xe0 0x0c 0x11 0x1f 0xba 0x50;
  e 0x8c 0x36 0x15 0x48 0xd9 0xd6 0xbf 0xca 0x42;
  e 0x94 0x1b 0x42 0x07 0xdf 0x82 0x0b 0xa9 0x9b;
  e 0x14 0x9b 0xca 0x07 0x57 0x90 0x99 0xb4 0x71;
  e 0xfc 0xfb 0x3a 0x9a 0xb2 0xb8 0x4b 0xa3 0x08;
  e 0xae 0x34 0x4d 0x12 0xd0 0x7a 0x54 0x06 0x9e;
  e 0x7b 0x7c 0xa7 0x9a 0x2f 0x37 0x43 0xac 0xe4;
  e 0x39 0x2b 0xba 0x8f 0x32 0xc0 0x7e 0xf4 0xe0;
  e 0xb3 0x29 0xc5 0x12 0x58 0x7d 0x4e 0x86 0xb7;
  e 0x36 0x24 0x27 0x8f 0xaf 0x5a 0xeb 0x73 0xcf;
  e 0xc1 0xb5 0x2a 0x60 0xe3 0xaf 0x90 0xd9 0x27;
  e 0xec 0xc2 0x75 0x55 0x83 0x57 0x37 0x46 0xa9;
  e 0x59 0x50 0x17 0x3f 0xdc 0x58 0x5a 0x9e 0x68;
  e 0xdb 0x28 0xa5 0x67 0x76 0x32 0x82 0xd1 0x4b;
  e 0x03 0xbd 0x40 0x10 0xd6 0x2f 0x7a 0xf1 0xa1;
  e 0x91 0x20 0xda 0x02 0xde 0xb2 0x7d 0x64 0x44;
  e 0x79 0x4a 0x72 0xcf 0x11 0xdf 0xb8 0x5c 0x77;
  e 0x51 0xd8 0x05 0xb0 0xc6 0xd0 0xc0 0x0c 0x3f;
  e 0x50 0x60 0x67 0x7f 0xfc 0xf0 0x31 0x5e 0xbe;
  e 0xb5 0x55 0xcf 0x65 0xb3 0x62 0x8e 0x5b 0x13;
  e 0x20 0x3f 0xb0 0x77 0x94 0x65 0x3c 0x1e 0x91;
  e 0xd8 0x67 0x60 0x6a 0x7b 0xe5 0x3e 0x56 0x36;
  e 0xc2 0x10 0x02 0xf0 0x36 0x6a 0x69 0xfe 0x23;
  e 0x4a 0x02 0x10 0xe5 0x39 0x7f 0xee 0x6b 0xa0;
  e 0x28 0xcf 0x55 0x70 0xae 0x77 0x0e 0x41 0xf1;
  e 0xbd 0xb0 0x3f 0x62 0x14 0x70 0x21 0x8c 0x78;
  e 0x54 0x3b 0x2d 0x26 0xa3 0xc0 0xd0 0xc9 0xa8;
  e 0x4b 0xe6 0x8a 0x61 0xb4 0x7d 0xb2 0xc3 0x15;
  e 0x7e 0xab 0xef 0xa4 0x86 0x82 0x32 0xf6 0x03;
  e 0x0b 0x9c 0x52 0x1c 0x73 0xb8 0xdf 0x96 0xe0;
  e 0x43 0x61 0x98 0xe6 0xa9 0x7a 0x2f 0xcb 0x47;
  e 0xeb 0xa4 0xe8 0xab 0x06 0x90 0xaf 0x63 0x88;
  e 0x99 0x1c 0xc8 0x9c 0xf4 0x37 0x57 0x04 0x1f;
  e 0x4e 0x26 0xa2 0x3b 0xac 0x5a 0x58 0xd3 0x8e;
  e 0x77 0x90 0xb5 0x6c 0x1f 0xf0 0x31 0xb8 0xef;
  e 0x7f 0x37 0xc2 0x84 0x30 0x62 0x8e 0x7d 0xaa;
  e 0xe5 0x5a 0x50 0xce 0x48 0x65 0x3c 0x82 0x09;
  e 0xf0 0xc0 0xd8 0xd4 0xd2 0x70 0x21 0x90 0x61;
  e 0x6a 0xb8 0x4a 0x16 0xbf 0x77 0x0e 0x7a 0xd0;
  e 0x62 0x82 0x28 0xf9 0x0d 0xe5 0x3e 0x37 0xde;
  e 0x70 0x7d 0x20 0x44 0xe7 0x7f 0xee 0xc0 0x81;
  e 0x65 0x7a 0xbd 0x4c 0xe0 0x6a 0x69 0x5a 0xa2;
  e 0x99 0xbe 0xb1 0x22 0x52 0xbf 0xd6 0x60 0x2a;
  e 0x0b 0xb1 0xbe 0xad 0xc8 0x30 0xde 0x67 0xb6;
  e 0xeb 0x2e 0x33 0x85 0xef 0x0d 0x83 0x3f 0xb4;
  e 0x4e 0x74 0xf3 0x4f 0x2d 0xd2 0xe3 0x02 0xea;
  e 0x7e 0x33 0x2e 0x97 0xe8 0x1f 0x11 0xb0 0x37;
  e 0x43 0x89 0x09 0x6f 0x8a 0xe7 0xc6 0x55 0x60;
  e 0x54 0xf3 0x74 0xd5 0xa2 0x48 0x76 0x10 0x94].
Definition B_26 : list aff := [
  e 0x4b 0x09 0x89 0x68 0x98 0xe0 0xdc 0xcf 0x01;
  e 0x48 0x43 0xa2 0xf1 0x61 0xb8 0x4b 0xe4 0x11;
  e 0xd2 0x4b 0x2d 0x64 0xe6 0x37 0x43 0x71 0xac;
  e 0x0d 0x4e 0xef 0x9e 0x26 0x7a 0x54 0x8b 0x4e;
  e 0xe7 0x99 0x8a 0x46 0x1c 0x82 0x0b 0x53 0x9b;
  e 0x30 0x7e 0xc8 0xd1 0xab 0x5a 0xeb 0xc4 0x1f;
  e 0x1f 0x54 0xe8 0x0c 0x3b 0x7d 0x4e 0x19 0x5f;
  e 0xe0 0x0b 0x98 0x5c 0x9c 0x90 0x99 0x49 0xd1;
  e 0xbf 0xeb 0x52 0xd9 0xa4 0xc0 0x7e 0xcc 0xf9;
  e 0x07 0xcc 0x2e 0xf4 0x88 0x89 0x73 0xef 0xeb;
  e 0x9a 0x53 0xbe 0xa9 0x9d 0xf3 0xb4 0x52 0x7e;
  e 0x8f 0x8b 0x74 0x06 0x9d 0xbe 0x86 0x2d 0x0e;
  e 0x8f 0x19 0xf3 0x86 0x9d 0xb1 0x06 0xa2 0x7d;
  e 0x9a 0x49 0xb1 0xb4 0x9d 0x74 0xa9 0xc8 0x7b;
  e 0x07 0xc4 0x33 0x73 0x88 0x09 0xf4 0xe8 0xfd;
  e 0x12 0x71 0x09 0xac 0x88 0x2e 0xa3 0x98 0xad;
  e 0x12 0xe4 0x89 0xa3 0x88 0x33 0xac 0x8a 0xcd;
  e 0x8a 0xb7 0x88 0xb6 0xa9 0x26 0xe1 0xf0 0xe4;
  e 0x98 0x38 0x88 0xb9 0xb4 0x3b 0x66 0xe5 0xa6;
  e 0xe8 0xdd 0x88 0x66 0x86 0x1c 0xb6 0x6a 0xf5;
  e 0x2d 0xfa 0x9d 0x13 0xac 0xab 0xa1 0x77 0x6f;
  e 0x52 0x9f 0x9d 0xbc 0xf4 0xe6 0x13 0x65 0x7d;
  e 0xef 0x47 0x88 0xe1 0x06 0x9c 0xb9 0x7f 0xa9;
  e 0xa2 0xfd 0x9d 0x93 0xa3 0xa4 0xbc 0x62 0xff;
  e 0xc8 0x8d 0x9d 0xa1 0x73 0x61 0x93 0x70 0xf3;
  e 0xa6 0xe5 0xee 0xbd 0x64 0xc5 0x40 0x15 0xad;
  e 0x81 0x6a 0x3e 0xb5 0xd1 0x42 0x2a 0x15 0xc1;
  e 0x2c 0x62 0x21 0x50 0x0c 0xba 0x17 0x15 0xf5;
  e 0x23 0x77 0x3c 0xd8 0x9e 0x27 0x05 0x15 0xe9;
  e 0xe9 0x70 0x0e 0xc2 0x5c 0x3a 0x75 0x15 0x61;
  e 0xbb 0xf0 0x69 0x20 0xf1 0x4d 0xda 0x15 0x93;
  e 0x01 0x7f 0x31 0x28 0xd9 0xca 0xa5 0x15 0x57;
  e 0x6e 0x65 0x8e 0x4a 0x46 0xa7 0x72 0x15 0xd5;
  e 0x57 0x79 0x59 0x8d 0x23 0xe6 0x13 0x95 0xb4;
  e 0xaf 0xdb 0x91 0xdd 0xa6 0x9c 0xb9 0x1a 0x31;
  e 0x2f 0x91 0xc1 0x38 0x01 0x26 0xe1 0x92 0xac;
  e 0xd0 0x59 0xec 0xfa 0x6e 0xa4 0xbc 0x08 0x17;
  e 0x32 0xc1 0x03 0x47 0xbb 0x1c 0xb6 0x1a 0x85;
  e 0x58 0x51 0x79 0xfd 0xe9 0xab 0xa1 0x08 0xbf;
  e 0xdf 0xec 0x51 0x9f 0x2c 0x61 0x93 0x95 0x72;
  e 0xb2 0x03 0xdb 0xb7 0x81 0x3b 0x66 0x92 0x76;
  e 0x29 0x66 0x03 0x91 0x76 0xd1 0x63 0xa5 0x49;
  e 0x34 0xe1 0x91 0x03 0xe3 0xd9 0xf6 0x2a 0x32;
  e 0x24 0xa1 0x51 0x59 0x11 0x5c 0x04 0x72 0xe2;
  e 0x7c 0x13 0x79 0xec 0xdc 0x9e 0xc9 0x17 0xbc;
  e 0x9b 0xb9 0xdb 0xc1 0xde 0x64 0xcb 0xda 0xa7;
  e 0x1b 0xb6 0xc1 0xdb 0xd6 0xf1 0xc3 0x40 0x22;
  e 0xfb 0x93 0xec 0x79 0xc6 0x0c 0xd3 0x05 0x48;
  e 0x2b 0xbc 0x59 0x51 0x83 0x46 0x96 0x75 0xe8;
  e 0x49 0x77 0x21 0x17 0xa5 0xb9 0x3c 0xa3 0xe4;
  e 0x8b 0x65 0x0e 0x75 0xda 0xe1 0x8e 0x73 0x67;
  e 0xe4 0x6a 0x31 0xa5 0x75 0x93 0x3e 0x06 0xda;
  e 0x71 0x7f 0x3e 0x2a 0x72 0x13 0x31 0x86 0x4f;
  e 0xc4 0xe5 0x69 0xda 0x05 0xa1 0xee 0xa9 0x99;
  e 0x19 0x70 0x8e 0x72 0x40 0x66 0x0e 0xf4 0xc8;
  e 0xcc 0xf0 0xee 0x40 0x17 0xbc 0x69 0xb4 0xab;
  e 0x53 0x62 0x3c 0x05 0x2a 0xb6 0x21 0xac 0xec;
  e 0x90 0xe2 0x0f 0xd5 0xc2 0xd7 0xe3 0x59 0x9e;
  e 0x7d 0x78 0x87 0x22 0x50 0x45 0xde 0x79 0x62;
  e 0xb8 0xf8 0x80 0x85 0x20 0x35 0x11 0xdb 0xb2;
  e 0x37 0xed 0x80 0x97 0xbd 0xa8 0x83 0xc1 0x3c;
  e 0x5a 0xff 0x1d 0x6f 0xb5 0xa0 0xdc 0x91 0x0c;
  e 0x82 0xf7 0x0f 0x4f 0x4a 0x5f 0x76 0x51 0x80;
  e 0x7a 0x6d 0x87 0xad 0xd8 0xcd 0xd6 0xec 0x7f].
Definition B_27 : list aff := [
  e 0xc0 0xea 0x1d 0x68 0x28 0x3d 0xc6 0x03 0x81;
  e 0x0e 0xee 0xda 0x40 0x1f 0xb5 0x02 0xce 0x0c;
  e 0x3c 0x31 0x2a 0xa5 0xe0 0xbd 0x60 0x84 0x74;
  e 0x31 0x8e 0x75 0x72 0xd2 0xd8 0x55 0x4c 0xe4;
  e 0x3e 0x0e 0x72 0x75 0x48 0x50 0xcf 0x44 0xaa;
  e 0xee 0x3c 0x17 0x05 0x30 0xc2 0x3f 0x6c 0x2c;
  e 0x69 0x21 0x05 0x17 0xbf 0x4a 0xb0 0xf9 0xa3;
  e 0x8e 0x69 0x40 0xda 0x0d 0x28 0x10 0xd4 0xf8;
  e 0xb2 0x7e 0x24 0xba 0x33 0x55 0xd9 0xa1 0x0f;
  e 0xdf 0x54 0x29 0x4d 0xf3 0x60 0x9e 0x66 0x7d;
  e 0xd0 0x99 0x1b 0xca 0xbe 0x02 0x5c 0xb6 0x2e;
  e 0x32 0x43 0xfb 0xa7 0x89 0x3f 0x64 0x93 0xa5;
  e 0xaf 0x4b 0x7c 0x3a 0x09 0xb0 0xf1 0x13 0x1a;
  e 0x57 0x4e 0x34 0xc5 0x74 0x67 0x0c 0xe1 0xe6;
  e 0x2f 0xeb 0x2b 0x27 0x2e 0xcf 0xd1 0xbc 0xdb;
  e 0x58 0x0b 0x9b 0x42 0xb1 0x10 0x46 0xb9 0xde;
  e 0x9d 0xcd 0xf4 0x33 0x08 0x01 0x2e 0x20 0x25;
  e 0x88 0x3d 0xa9 0xb1 0x1a 0x6e 0xbe 0x50 0x41;
  e 0x88 0x35 0x86 0x74 0x92 0x2c 0xf3 0xc2 0x58;
  e 0x9d 0x45 0x73 0x2e 0x08 0x81 0x33 0xbd 0x40;
  e 0x9d 0x5f 0xa3 0x09 0x95 0xbb 0x89 0xb5 0x6a;
  e 0x88 0xa0 0xb4 0xbe 0x1a 0xe9 0xb1 0xd8 0x04;
  e 0x9d 0xd7 0xac 0x89 0x95 0xa6 0x09 0x28 0x39;
  e 0x88 0xa8 0x06 0xf3 0x92 0x23 0x74 0x4a 0x2b;
  e 0x0d 0x24 0x1c 0xba 0xc7 0x3c 0x9c 0x2e 0x66;
  e 0xbf 0x9b 0x61 0x42 0x18 0x31 0xe6 0xbe 0xd8;
  e 0x1f 0x2b 0x9c 0x27 0x5d 0x21 0x1c 0x33 0x5c;
  e 0xd2 0x29 0xa4 0x4d 0xf5 0xee 0xab 0x74 0xb5;
  e 0x48 0x34 0xab 0xc5 0xf2 0x69 0xa4 0xf3 0x20;
  e 0xe7 0x7c 0x3b 0x3a 0xaa 0x8e 0x26 0x89 0xf1;
  e 0x30 0x1b 0xe6 0xca 0x0a 0x3e 0x61 0xb1 0x2a;
  e 0xe0 0xfb 0x26 0xa7 0x25 0x0e 0x3b 0x09 0xac;
  e 0x25 0x91 0xcb 0x47 0xa0 0xf2 0xdb 0x4c 0x08;
  e 0xf5 0x59 0xc9 0x9f 0xd7 0x5d 0x79 0xd4 0xbc;
  e 0x0a 0x79 0x04 0xfa 0x45 0xaa 0x51 0x84 0x10;
  e 0xaa 0x03 0xc3 0xdd 0x3d 0xf5 0xc1 0x44 0xd0;
  e 0xc7 0xc1 0xf6 0xb7 0xa8 0x0a 0x91 0xf9 0x9d;
  e 0xf2 0x51 0xd3 0x8d 0x5f 0xc7 0xec 0xce 0xb2;
  e 0x5d 0xdb 0x63 0x38 0x35 0x18 0x03 0x6c 0x26;
  e 0x18 0xec 0x96 0xfd 0xcd 0x25 0x59 0x16 0x7d;
  e 0x1f 0x61 0xb2 0x46 0x24 0x6a 0x1b 0x3d 0x71;
  e 0xbf 0x26 0xd0 0x64 0x1b 0x65 0x7c 0xd7 0xaa;
  e 0xe0 0xab 0xaf 0x0c 0x7c 0xe5 0x29 0x35 0xb5;
  e 0xd2 0x9c 0x57 0xd1 0x34 0x77 0x24 0x45 0xdb;
  e 0x30 0x3b 0x58 0xf1 0x9b 0x70 0xfb 0x5f 0x11;
  e 0x48 0x1c 0xdf 0xd9 0x29 0x62 0x2b 0xcd 0x3a;
  e 0xe7 0xa4 0x32 0x9e 0xfb 0xf0 0x34 0xa8 0x8c;
  e 0x0d 0xe6 0x2f 0x5c 0x2b 0x7f 0x9b 0xa0 0x12;
  e 0x53 0x0a 0x1c 0x9c 0x79 0x58 0xeb 0xd5 0xbb;
  e 0x49 0x18 0x9c 0x1c 0xec 0xd0 0x7e 0x4f 0x84;
  e 0xcc 0x5d 0xa4 0xab 0xdb 0xb2 0x4e 0x6f 0xae;
  e 0x8b 0xf2 0x26 0x3b 0x51 0xdf 0x4b 0x22 0x6c;
  e 0xc4 0xc7 0xab 0xa4 0xc1 0x2f 0x54 0x68 0xea;
  e 0xe4 0x25 0x61 0xe6 0x91 0xaf 0x99 0x97 0x8d;
  e 0x19 0xf5 0x3b 0x26 0x59 0x57 0x43 0xad 0xe9;
  e 0x71 0xaa 0xe6 0x61 0x03 0x32 0x0b 0x85 0x73;
  e 0x7f 0x9c 0xba 0x27 0x4f 0xcb 0x52 0x4d 0xf9;
  e 0x77 0xab 0x4d 0xc5 0x68 0x04 0xef 0xa7 0x8a;
  e 0x65 0xe6 0x42 0xca 0x85 0xc9 0x8a 0xba 0x86;
  e 0xf0 0x26 0x3a 0xa7 0x22 0xf6 0xa2 0x42 0x0b;
  e 0x62 0xa4 0xc5 0x4d 0x6f 0x96 0xe8 0x3a 0xbf;
  e 0xe5 0x3b 0xa7 0x3a 0xad 0x63 0x2d 0xca 0x34;
  e 0x6a 0x1c 0x27 0xba 0xd5 0xc3 0xc8 0xc5 0x82;
  e 0x70 0x61 0xca 0x42 0x97 0xd3 0x98 0x27 0xf7].
Definition B_28 : list aff := [
  e 0x71 0x37 0x65 0x56 0x1b 0xa2 0x55 0x39 0x09;
  e 0x49 0x90 0x7f 0x8c 0x2b 0x8a 0x60 0xae 0xc1;
  e 0x8b 0x7a 0xf0 0x41 0xfb 0xe8 0x10 0x94 0x39;
  e 0xcc 0xc0 0x62 0x6b 0x29 0xc8 0xb0 0xfc 0xca;
  e 0x53 0x82 0x6a 0x1e 0x24 0x98 0x67 0xb3 0xd1;
  e 0xc4 0x5a 0x77 0xfe 0x34 0x52 0x3f 0x7b 0x9d;
  e 0xe4 0xb8 0x70 0x5e 0x9b 0x2d 0xcf 0x36 0xc7;
  e 0x19 0x7d 0xe5 0x5b 0x7c 0xef 0x02 0x14 0xb0;
  e 0xdc 0xf6 0xdd 0x66 0xf9 0xce 0x03 0xb1 0x56;
  e 0x11 0xcb 0xb7 0xb6 0x4c 0x16 0xc1 0xf3 0xc8;
  e 0x76 0x04 0x9f 0xbc 0x84 0xf9 0x59 0x89 0x59;
  e 0xe3 0x96 0x8d 0xa1 0x16 0x6c 0x51 0x09 0x94;
  e 0xde 0xc9 0xfd 0x93 0xd4 0x44 0xec 0x33 0x9e;
  e 0xc6 0x63 0x47 0xe1 0x6c 0xd4 0x91 0xbe 0x2c;
  e 0x83 0xc3 0x38 0xb9 0x44 0x84 0xdb 0x74 0x6d;
  e 0xd6 0xd3 0xfa 0x13 0xce 0x4c 0x79 0x2e 0x8c;
  e 0x1d 0x84 0x55 0xc2 0x07 0xf1 0x4a 0xb3 0xa3;
  e 0x80 0xce 0x3f 0x50 0x12 0xd9 0xd8 0x94 0x31;
  e 0x1d 0x16 0xcf 0x4a 0x07 0x64 0xc2 0xae 0xd5;
  e 0x0f 0x4c 0x10 0xbd 0x9a 0x0c 0x20 0x36 0xab;
  e 0x0f 0x44 0x02 0x20 0x9a 0x9e 0xbd 0x39 0xbd;
  e 0x87 0x6c 0x60 0xb5 0x8f 0x46 0x28 0xfc 0x2a;
  e 0x87 0xf9 0x67 0x28 0x8f 0x5c 0xb5 0x7b 0x79;
  e 0x80 0xd4 0xb0 0xd8 0x12 0xd1 0x50 0x14 0x02;
  e 0x1b 0x87 0x01 0xa0 0x18 0x36 0x6d 0x2a 0x2a;
  e 0x29 0x0f 0xbb 0xa8 0xf2 0x7b 0xf7 0x40 0x40;
  e 0x2b 0x80 0x23 0x45 0xc7 0xb3 0xed 0x17 0x90;
  e 0x24 0x80 0x2c 0xcd 0x5d 0xae 0xf8 0x05 0x88;
  e 0x34 0x0f 0xa6 0x35 0xf5 0xfc 0xe2 0xda 0x55;
  e 0xfb 0x1d 0x6e 0xd7 0xaa 0x14 0xea 0x75 0x44;
  e 0x7c 0x1d 0xe9 0x5f 0x25 0x94 0xff 0x72 0xf8;
  e 0x9b 0x87 0x81 0x3d 0x0a 0x39 0x78 0xa5 0x9b;
  e 0xbb 0x40 0x5b 0xda 0xf1 0x0c 0x20 0xae 0x93;
  e 0x6e 0x75 0x5e 0x72 0x46 0xf1 0x4a 0x7b 0xa3;
  e 0x2c 0x05 0xfe 0x17 0x0c 0xd1 0x50 0x39 0x83;
  e 0x23 0x17 0x6b 0x05 0x9e 0xd9 0xd8 0x36 0xa9;
  e 0xe9 0x72 0x56 0x75 0x5c 0x64 0xc2 0xfc 0x24;
  e 0xa6 0xda 0x41 0x40 0x64 0x9e 0xbd 0xb3 0xcd;
  e 0x01 0x2a 0x1e 0xa5 0xd9 0x46 0x28 0x14 0x12;
  e 0x81 0xa5 0x8c 0x2a 0xd1 0x5c 0xb5 0x94 0xe1;
  e 0x43 0x9f 0x13 0x59 0xea 0x0c 0xd3 0x62 0x69;
  e 0x4b 0x8d 0x93 0x51 0xff 0x9e 0xc9 0x77 0x4d;
  e 0x7e 0xfd 0xbc 0xec 0xf8 0x5c 0x04 0x70 0x5b;
  e 0x4e 0x38 0x66 0xdb 0xe2 0xd9 0xf6 0x7f 0x8b;
  e 0x99 0x47 0xb9 0x91 0x6d 0xf1 0xc3 0xf0 0x22;
  e 0xeb 0xfa 0xa1 0x79 0xed 0x46 0x96 0x65 0xc9;
  e 0x54 0xb7 0xe1 0xc1 0xf7 0xd1 0x63 0x6a 0xe9;
  e 0x0b 0xdd 0xb6 0x03 0x78 0x64 0xcb 0xe5 0xf6;
  e 0x2f 0x2c 0x23 0xcd 0xf6 0x5f 0xcc 0xe8 0xc3;
  e 0x57 0xbb 0xa6 0xa8 0xc9 0x3d 0x8b 0xa2 0xc9;
  e 0x32 0xe9 0x6e 0x5f 0xc3 0x45 0xe4 0x98 0x93;
  e 0x58 0x01 0x81 0xa0 0x04 0xa8 0x49 0x52 0x86;
  e 0xd0 0x81 0x01 0x3d 0x96 0x35 0x53 0xc8 0x7b;
  e 0xdf 0xa6 0xbb 0x35 0xd3 0xa0 0x19 0x2d 0x5e;
  e 0xb2 0x23 0x2c 0x45 0x63 0xd7 0xc4 0xef 0x5f;
  e 0xaf 0x6e 0xe9 0xd7 0xcb 0xcd 0x71 0x8a 0x65;
  e 0x60 0x35 0x19 0xf7 0x37 0xd7 0xe3 0x9d 0x4e;
  e 0xcf 0xcd 0xcc 0xed 0x7d 0x35 0x11 0x88 0x8a;
  e 0x10 0xa0 0x49 0x78 0xc0 0xcd 0xd6 0x9d 0x16;
  e 0xb0 0xd7 0x71 0xff 0x82 0x3d 0xc6 0x88 0xa0;
  e 0x55 0x45 0xc4 0xf8 0x7a 0xa8 0x83 0x88 0x4c;
  e 0x3f 0x5f 0xe4 0xea 0x90 0xa0 0xdc 0x88 0x44;
  e 0x02 0x3d 0x53 0x6d 0x5a 0x45 0xde 0x9d 0x5a;
  e 0x67 0xa8 0x8b 0xe2 0xb8 0x5f 0x76 0x9d 0x20].
Definition B_29 : list aff := [
  e 0xf6 0xde 0x22 0xbe 0x8c 0x6f 0x49 0x08 0xef;
  e 0xd3 0x83 0x97 0x33 0x6b 0xad 0xcc 0x92 0x0a;
  e 0x04 0xc6 0x68 0x09 0x5e 0x4f 0xe4 0x1a 0xaf;
  e 0xc3 0xe3 0xd5 0xf3 0x41 0x97 0x8b 0x95 0xc0;
  e 0x63 0xd6 0xad 0xb1 0x1e 0x68 0x53 0x08 0x47;
  e 0x96 0xdc 0x6f 0x89 0x56 0xd5 0x71 0x1a 0x39;
  e 0xcb 0x76 0x4f 0x74 0x5b 0x85 0x19 0x95 0xb2;
  e 0xc9 0x11 0x85 0x2e 0xfe 0x22 0xc4 0x92 0x46;
  e 0x88 0x7f 0x82 0x8c 0x0f 0x4e 0x1e 0x57 0x43;
  e 0x9d 0x77 0xc0 0xfe 0x1d 0x4b 0x6b 0xaf 0x54;
  e 0x88 0x6a 0x90 0x1e 0x0f 0x54 0x8c 0xdf 0x50;
  e 0x9d 0x62 0x5a 0x6b 0x1d 0x43 0xfe 0x32 0x67;
  e 0x88 0xe5 0x7a 0x5b 0x87 0x0b 0x41 0x58 0x3b;
  e 0x9d 0x70 0x37 0x5e 0x80 0x7e 0x56 0xb2 0x6c;
  e 0x9d 0x65 0xb8 0x56 0x80 0xeb 0x5e 0x2f 0x49;
  e 0x88 0xf0 0x7d 0x41 0x87 0x99 0x5b 0xd0 0x3e;
  e 0x7c 0x78 0xb4 0xb1 0x59 0xa6 0x6d 0x2b 0xcb;
  e 0x9b 0xf8 0x73 0x33 0x91 0xe9 0xed 0x34 0x8c;
  e 0x34 0xff 0xac 0x09 0xc1 0x23 0xea 0x1b 0x28;
  e 0x2b 0xe2 0x06 0x74 0xec 0x01 0xf7 0xfb 0xb4;
  e 0x1b 0xed 0xf4 0x2e 0x03 0x6e 0xf8 0x29 0x20;
  e 0x24 0xf7 0x86 0xf3 0x79 0x81 0xe2 0x7c 0x89;
  e 0xfb 0x6d 0xa9 0xbe 0x51 0xbb 0x78 0x24 0x4b;
  e 0x29 0xea 0xa3 0x89 0xdb 0x2c 0xff 0x9b 0x39;
  e 0xaa 0x88 0x38 0xc1 0x3d 0x43 0xdd 0xee 0xa6;
  e 0xf2 0x9d 0xfa 0xec 0x5f 0x54 0x8d 0x3c 0x92;
  e 0x0a 0x9d 0x9f 0x51 0x45 0x0b 0xfa 0x8e 0x03;
  e 0x25 0x88 0xb7 0xdb 0xa0 0x4b 0x47 0x69 0x0d;
  e 0x5d 0x88 0x47 0x03 0x35 0x7e 0x38 0x31 0x35;
  e 0xf5 0x9d 0xfd 0x79 0xd7 0x4e 0x9f 0x21 0x8a;
  e 0xc7 0x88 0xdd 0x91 0xa8 0xeb 0xb7 0x3e 0x8b;
  e 0x18 0x9d 0x8d 0x59 0xcd 0x99 0xfd 0x0e 0x0e;
  e 0x65 0xfc 0x48 0x36 0x25 0xe9 0xb3 0x43 0xbe;
  e 0x6a 0x14 0xe0 0xae 0x18 0x01 0x7b 0x0b 0x9f;
  e 0xe5 0xae 0x0d 0x94 0xf2 0xbb 0x39 0x4e 0x73;
  e 0x62 0x36 0x30 0x7b 0xc7 0x23 0x14 0x7e 0xf0;
  e 0x70 0x7b 0xd2 0x39 0xaa 0x6e 0xae 0x4b 0xd2;
  e 0xf0 0xb3 0x1f 0x14 0xf5 0xa6 0x36 0x54 0x63;
  e 0x77 0x39 0xbf 0xfc 0x5d 0x2c 0x94 0xeb 0xcb;
  e 0x7f 0x94 0xe7 0xb3 0x0a 0x81 0xfc 0x99 0xd8;
  e 0xab 0x7c 0xf2 0xf5 0xe4 0x3f 0x64 0x51 0x54;
  e 0xe6 0x2b 0x0a 0x18 0xc4 0x55 0xd9 0x79 0x66;
  e 0x3b 0x9b 0xaa 0x25 0x53 0x02 0x5c 0x03 0x47;
  e 0x26 0x1b 0x25 0xaa 0x49 0x10 0x46 0x91 0x36;
  e 0x61 0x24 0x18 0x0a 0xcc 0xcf 0xd1 0xec 0xe3;
  e 0x9c 0x34 0x5d 0xc7 0x19 0x60 0x9e 0xdb 0xb4;
  e 0x1c 0x29 0xc7 0x5d 0x8b 0x67 0x0c 0xc1 0x0e;
  e 0xa4 0xfb 0xf5 0xf2 0x71 0xb0 0xf1 0x59 0x1a;
  e 0xd5 0x20 0x41 0xf0 0xa7 0x5d 0x4c 0x7b 0xcd;
  e 0x6f 0x4a 0x56 0x65 0xca 0xf2 0x84 0x14 0x78;
  e 0x85 0xd8 0xfe 0x77 0xc5 0x18 0xce 0xb3 0x9d;
  e 0x4f 0xbd 0x5b 0xe5 0x3a 0xc7 0x44 0xfc 0x00;
  e 0x68 0xc2 0x5e 0x70 0x42 0xf5 0x16 0x94 0x33;
  e 0xad 0xb5 0x1e 0x6a 0xba 0x25 0xf9 0x39 0x9f;
  e 0x22 0x28 0x8c 0x7f 0x27 0xaa 0x6c 0x36 0x71;
  e 0x97 0x50 0x6b 0x62 0x4d 0x0a 0xd4 0xae 0xf5;
  e 0x39 0x5d 0x0c 0xaf 0xf1 0x69 0xa4 0x4f 0x80;
  e 0xae 0xf2 0xf1 0x58 0x46 0x8e 0x26 0x68 0xd0;
  e 0x14 0x18 0xd9 0xdf 0x9e 0x3c 0x9c 0x97 0x0f;
  e 0x36 0xc7 0x9e 0x32 0x64 0xee 0xab 0xd5 0xfd;
  e 0xb3 0xf5 0x64 0xd0 0x5c 0x0e 0x3b 0x6f 0xe4;
  e 0x7b 0xaa 0x46 0xb2 0xd9 0x31 0xe6 0xad 0xc1;
  e 0x94 0x0a 0xd1 0x57 0x0c 0x21 0x1c 0x85 0x95;
  e 0x72 0x97 0xc4 0xcc 0x69 0xbb 0x73 0xb9 0x52].
Definition B_30 : list aff := [
  e 0x05 0x6f 0xe4 0x71 0x31 0x01 0xa3 0x66 0x05;
  e 0x40 0x22 0x53 0x49 0x3c 0x23 0xa9 0x93 0x1b;
  e 0xda 0xad 0x49 0x53 0x21 0x2c 0xb4 0x13 0xda;
  e 0xa5 0xd5 0x19 0x8b 0x8e 0x6e 0x86 0xa1 0xc3;
  e 0x75 0x85 0xcc 0xc4 0xee 0xa6 0xf4 0xb6 0x58;
  e 0x17 0x68 0x71 0xe4 0x3e 0x81 0xac 0xe1 0x30;
  e 0x2a 0x4f 0x8b 0x19 0x0e 0xe9 0x06 0xbc 0x3d;
  e 0x41 0xb3 0xae 0x48 0xf1 0x4f 0x30 0x0c 0xc5;
  e 0x56 0xfc 0x7b 0xe7 0x46 0x68 0x1f 0xf1 0x15;
  e 0xfe 0x39 0x36 0x0d 0x9e 0x97 0xe7 0xd9 0xcb;
  e 0x8c 0x94 0x14 0xbf 0xd9 0xad 0x48 0x46 0x71;
  e 0x1e 0x14 0x94 0x30 0xd1 0x22 0xd2 0x5c 0x87;
  e 0x5e 0x7b 0xfc 0xe0 0x5c 0x6f 0x0d 0x64 0x74;
  e 0x5b 0xae 0xb3 0xd2 0x64 0xd5 0xbf 0x9e 0xda;
  e 0x6b 0x36 0x39 0x1f 0x0c 0x85 0xe0 0xd1 0x43;
  e 0xca 0x8f 0x57 0x0a 0x83 0x5e 0xeb 0x93 0x0f;
  e 0xa7 0x07 0x2f 0x25 0xd6 0x5b 0x99 0x66 0x41;
  e 0x27 0x12 0xaf 0x5d 0xe3 0x1e 0x4e 0xb6 0xe2;
  e 0x42 0x8f 0xdf 0x18 0x11 0x56 0x7e 0x13 0xa4;
  e 0x4d 0x9a 0xd0 0xf5 0xc6 0xfe 0x43 0xa1 0xb9;
  e 0xc5 0x9a 0x58 0xf2 0xdc 0x6b 0x4b 0xbc 0x1d;
  e 0x3a 0x07 0xb2 0xaa 0xde 0x41 0x0b 0xe1 0xf2;
  e 0xba 0x12 0x32 0xc7 0x76 0x8c 0x54 0xb9 0x5e;
  e 0x74 0xa7 0xa2 0x4b 0xc9 0x9c 0x7c 0x3d 0x8b;
  e 0x09 0xca 0x8a 0x0b 0xcb 0xab 0x9b 0xcd 0x16;
  e 0xb1 0x27 0x52 0x7e 0x04 0x3b 0x24 0xa8 0x66;
  e 0xbe 0xba 0xc8 0xeb 0x96 0x26 0x2b 0x35 0x1f;
  e 0x89 0x42 0x98 0x99 0xc3 0xa4 0x1b 0x45 0xc5;
  e 0xf3 0x3a 0x2d 0x43 0xd3 0x1c 0xfb 0xa0 0x6c;
  e 0x2e 0x4d 0xe8 0x4e 0xf6 0xe6 0x34 0x5f 0x55;
  e 0xfe 0x29 0x0c 0x34 0xea 0x8d 0x54 0x64 0x8a;
  e 0x6b 0x34 0x9e 0x29 0xff 0x9f 0x4e 0xf1 0x2b;
  e 0x8c 0x24 0xd1 0x2b 0xf7 0x38 0x7e 0x9e 0x5c;
  e 0x41 0x7c 0x64 0xfb 0x78 0x47 0x4b 0x46 0xe5;
  e 0x56 0x9b 0x5c 0x1b 0xf8 0xfa 0x0b 0xd9 0x4b;
  e 0x5e 0x1b 0x46 0x9b 0xed 0xfd 0x99 0xd1 0x19;
  e 0x5b 0xfb 0xf1 0x7c 0x6d 0xdd 0x43 0x5c 0x91;
  e 0x1e 0x2b 0xd9 0x24 0xe2 0xb7 0xeb 0x0c 0xdb;
  e 0x6b 0x7f 0x1e 0x60 0x94 0xda 0x6c 0x65 0x41;
  e 0x1e 0x65 0x5e 0x55 0xfc 0x17 0x84 0xf0 0xec;
  e 0x41 0x77 0x6b 0x3f 0x39 0x72 0xce 0x7f 0xe5;
  e 0x5b 0x62 0xfe 0xb0 0x36 0x75 0xd4 0x6a 0xd5;
  e 0x8c 0x70 0x56 0xcf 0x7b 0x05 0x16 0xe5 0x76;
  e 0xfe 0x6a 0x8c 0x67 0x14 0x40 0xf9 0x70 0xef;
  e 0x56 0xe5 0x41 0x02 0xae 0xa5 0x44 0x77 0x01;
  e 0x5e 0xf0 0x5b 0x10 0xb3 0x2a 0x4c 0x62 0x05;
  e 0x35 0x8d 0x96 0xd3 0x0e 0x1e 0x9f 0xdc 0xea;
  e 0xa8 0x9f 0x04 0xc9 0x8e 0x8c 0x8d 0xc6 0x46;
  e 0x5f 0xdd 0xf6 0xc3 0x3e 0x6b 0x47 0xde 0xd5;
  e 0x3d 0xfd 0xc9 0x96 0x21 0x41 0xfa 0x11 0xeb;
  e 0xd7 0x47 0x63 0xcb 0x31 0xfe 0xdd 0xd6 0x33;
  e 0x45 0x38 0xc3 0x63 0xee 0x5e 0xb7 0xe3 0x8f;
  e 0xa0 0xfa 0xd3 0x04 0x3c 0x5b 0xfd 0x83 0x7a;
  e 0xcd 0xb7 0xcb 0xf6 0x69 0x56 0x38 0x76 0x54;
  e 0x16 0x25 0x8a 0xb2 0xc4 0x79 0x42 0x0a 0x86;
  e 0x44 0xf5 0xa2 0x58 0x49 0x91 0x3a 0x25 0x56;
  e 0xf9 0x0a 0x52 0xdf 0x19 0xdb 0xba 0x5d 0xa4;
  e 0x84 0xaa 0x98 0x2f 0xcc 0xec 0xca 0x18 0x50;
  e 0xce 0xc7 0xe8 0xaf 0x71 0x59 0xc5 0xf5 0x4d;
  e 0xd4 0x5d 0xef 0x32 0xe4 0x51 0x4d 0xf2 0x17;
  e 0x4c 0xf2 0x2d 0xd0 0x53 0x03 0xa7 0xaa 0x61;
  e 0x6c 0x18 0xc8 0x57 0x8b 0xc1 0x27 0xc7 0x1f;
  e 0xf4 0x66 0xc1 0x88 0x5b 0x5e 0xb7 0xbb 0x67;
  e 0xa3 0xb9 0x03 0x88 0x8c 0xfe 0xdd 0x81 0x0b].
Definition B_31 : list aff := [
  e 0x73 0xe1 0xdb 0x88 0x41 0x56 0x38 0xa6 0xa5;
  e 0xb4 0xbc 0x79 0x9d 0x6b 0x41 0xfa 0x23 0xeb;
  e 0xa9 0xa1 0xec 0x9d 0xfe 0x5b 0xfd 0x2c 0xc3;
  e 0x06 0x93 0x59 0x9d 0x5e 0x1e 0x9f 0x6e 0x6b;
  e 0xac 0xb6 0x91 0x88 0x1e 0x6b 0x47 0x01 0x24;
  e 0x86 0x13 0x51 0x9d 0x56 0x8c 0x8d 0xe9 0xae;
  e 0x6d 0xa5 0x60 0x82 0x52 0x9b 0x7f 0xbf 0xfb;
  e 0xff 0x75 0xcf 0x37 0x98 0xfb 0x70 0xe0 0x07;
  e 0xf7 0xda 0x10 0x7d 0xa2 0x34 0xf0 0x48 0x64;
  e 0xf8 0x17 0xb0 0x5a 0xe8 0x2b 0x62 0x1f 0x02;
  e 0xea 0x72 0x55 0xb8 0x8a 0x7c 0x65 0xe7 0x33;
  e 0xed 0x05 0x3f 0xc0 0xef 0x24 0x77 0x0d 0x32;
  e 0xe2 0x40 0x02 0x7a 0x2d 0x29 0xe5 0xd2 0x2d;
  e 0x78 0x2a 0x67 0x90 0xc8 0x1b 0x6a 0x30 0xb6;
  e 0x45 0x08 0x50 0x21 0xab 0xc8 0xb0 0x0d 0xca;
  e 0x35 0x92 0x20 0x69 0x3b 0xe8 0x10 0xd2 0x99;
  e 0x3d 0x1a 0x28 0x31 0x1c 0x8a 0x60 0x30 0xd8;
  e 0xcd 0x08 0xd8 0x3c 0xa4 0x52 0x3f 0x1f 0x6c;
  e 0xa8 0x92 0xbd 0xee 0x26 0xef 0x02 0x48 0x28;
  e 0xd7 0x95 0xc2 0x0e 0xe6 0x2d 0xcf 0xe7 0x2f;
  e 0x5f 0x95 0x4a 0x8e 0x61 0xa2 0x55 0xe0 0x91;
  e 0xa0 0x1a 0xb5 0x3e 0x9c 0x98 0x67 0xbf 0x71;
  e 0x0c 0x03 0x66 0x88 0xf3 0xc8 0xc3 0x60 0xca;
  e 0x9e 0x91 0xe1 0x88 0x74 0x52 0xcb 0x67 0x26;
  e 0xd1 0x51 0xa1 0x9d 0x33 0x98 0xd3 0x55 0x88;
  e 0x64 0x79 0x13 0x9d 0x09 0xef 0x04 0xb0 0x2b;
  e 0x5c 0xdb 0xb9 0x88 0xb1 0x2d 0x63 0x10 0xac;
  e 0x46 0xc1 0xb6 0x88 0xbe 0xa2 0xf6 0x02 0xaa;
  e 0xf1 0xec 0x93 0x9d 0x89 0xe8 0x96 0x3f 0xc0;
  e 0xd9 0x59 0xbc 0x9d 0x2e 0x8a 0xc9 0xcf 0x89;
  e 0x89 0x8a 0xaa 0x1b 0xc3 0xaf 0x99 0xcc 0xc5;
  e 0xbe 0x52 0x18 0x2b 0x96 0x58 0xeb 0x8b 0x3a;
  e 0x74 0x2d 0xf5 0x7c 0xc9 0xdf 0x4b 0x49 0x9d;
  e 0x09 0x98 0x25 0x9b 0xcb 0x32 0x0b 0xc4 0x73;
  e 0xb1 0xc8 0x0a 0x24 0x04 0xd0 0x7e 0x19 0x75;
  e 0x33 0xe8 0x5d 0x29 0x63 0x2f 0x54 0xe4 0x6b;
  e 0x2e 0xef 0xc7 0x34 0xf6 0xb2 0x4e 0x71 0x46;
  e 0xf3 0xa2 0xf2 0xfb 0xd3 0x57 0x43 0x53 0x49;
  e 0x83 0x5b 0xee 0x7a 0x62 0xc9 0xbd 0xbe 0x64;
  e 0xa9 0x96 0x51 0xfd 0xfe 0x92 0x9d 0x85 0xb5;
  e 0x5a 0x34 0xaf 0xe8 0xe9 0x79 0x5d 0x26 0x3c;
  e 0x21 0x3e 0xa5 0x2a 0xe7 0x20 0x67 0x16 0x41;
  e 0x30 0x8a 0x99 0x61 0x0a 0xa5 0xca 0x81 0x79;
  e 0xc9 0xac 0xd7 0xdc 0x37 0xf3 0xff 0xa5 0x2d;
  e 0x33 0xc5 0xef 0x54 0x63 0x61 0x29 0xd7 0x18;
  e 0x80 0xc1 0x63 0xc3 0x92 0xc2 0xcb 0x86 0x3f;
  e 0xa3 0x6c 0x28 0x1e 0x55 0x13 0x31 0x76 0x1e;
  e 0xfc 0x25 0x5c 0x2f 0xd1 0x3e 0x61 0x22 0x12;
  e 0x1b 0x23 0x85 0xf8 0x03 0xa3 0x2e 0x32 0x45;
  e 0x9c 0x8d 0xc9 0x79 0x85 0x1b 0xbc 0x5e 0xe6;
  e 0xf0 0xa0 0xa9 0x81 0x05 0x11 0x53 0xa1 0x1b;
  e 0x96 0xe4 0xe9 0x71 0x56 0xbb 0x89 0x8c 0x6a;
  e 0x80 0xdb 0xf6 0xcb 0x92 0x4a 0xc3 0x06 0x1a;
  e 0xe3 0xb8 0xcf 0xc2 0xf0 0xdd 0x37 0xcd 0xc8;
  e 0x45 0x9e 0xaf 0x29 0x91 0xca 0xc7 0xac 0xae].
(** se_wbsm4_local.h:6, as SE_initial leaves it *)
Definition SE_B : list aff :=
  concat [B_0; B_1; B_2; B_3; B_4; B_5; B_6; B_7; B_8; B_9; B_10; B_11; B_12; B_13; B_14; B_15; B_16; B_17; B_18; B_19; B_20; B_21; B_22; B_23; B_24; B_25; B_26; B_27; B_28; B_29; B_30; B_31].
