(** * Model of src/sm4/sm4.c and src/sm4/sm4_modes.c *)
From Verif Require Import Base Word32 CbcModel GcmModel.
Local Open Scope nat_scope.

(** src/sm4/sm4.c:14-37 SM4_S *)
Definition SM4_S : list N :=
  [ 0xd6; 0x90; 0xe9; 0xfe; 0xcc; 0xe1; 0x3d; 0xb7; 0x16; 0xb6; 0x14; 0xc2; 0x28; 0xfb; 0x2c; 0x05;
    0x2b; 0x67; 0x9a; 0x76; 0x2a; 0xbe; 0x04; 0xc3; 0xaa; 0x44; 0x13; 0x26; 0x49; 0x86; 0x06; 0x99;
    0x9c; 0x42; 0x50; 0xf4; 0x91; 0xef; 0x98; 0x7a; 0x33; 0x54; 0x0b; 0x43; 0xed; 0xcf; 0xac; 0x62;
    0xe4; 0xb3; 0x1c; 0xa9; 0xc9; 0x08; 0xe8; 0x95; 0x80; 0xdf; 0x94; 0xfa; 0x75; 0x8f; 0x3f; 0xa6;
    0x47; 0x07; 0xa7; 0xfc; 0xf3; 0x73; 0x17; 0xba; 0x83; 0x59; 0x3c; 0x19; 0xe6; 0x85; 0x4f; 0xa8;
    0x68; 0x6b; 0x81; 0xb2; 0x71; 0x64; 0xda; 0x8b; 0xf8; 0xeb; 0x0f; 0x4b; 0x70; 0x56; 0x9d; 0x35;
    0x1e; 0x24; 0x0e; 0x5e; 0x63; 0x58; 0xd1; 0xa2; 0x25; 0x22; 0x7c; 0x3b; 0x01; 0x21; 0x78; 0x87;
    0xd4; 0x00; 0x46; 0x57; 0x9f; 0xd3; 0x27; 0x52; 0x4c; 0x36; 0x02; 0xe7; 0xa0; 0xc4; 0xc8; 0x9e;
    0xea; 0xbf; 0x8a; 0xd2; 0x40; 0xc7; 0x38; 0xb5; 0xa3; 0xf7; 0xf2; 0xce; 0xf9; 0x61; 0x15; 0xa1;
    0xe0; 0xae; 0x5d; 0xa4; 0x9b; 0x34; 0x1a; 0x55; 0xad; 0x93; 0x32; 0x30; 0xf5; 0x8c; 0xb1; 0xe3;
    0x1d; 0xf6; 0xe2; 0x2e; 0x82; 0x66; 0xca; 0x60; 0xc0; 0x29; 0x23; 0xab; 0x0d; 0x53; 0x4e; 0x6f;
    0xd5; 0xdb; 0x37; 0x45; 0xde; 0xfd; 0x8e; 0x2f; 0x03; 0xff; 0x6a; 0x72; 0x6d; 0x6c; 0x5b; 0x51;
    0x8d; 0x1b; 0xaf; 0x92; 0xbb; 0xdd; 0xbc; 0x7f; 0x11; 0xd9; 0x5c; 0x41; 0x1f; 0x10; 0x5a; 0xd8;
    0x0a; 0xc1; 0x31; 0x88; 0xa5; 0xcd; 0x7b; 0xbd; 0x2d; 0x74; 0xd0; 0x12; 0xb8; 0xe5; 0xb4; 0xb0;
    0x89; 0x69; 0x97; 0x4a; 0x0c; 0x96; 0x77; 0x7e; 0x65; 0xb9; 0xf1; 0x09; 0xc5; 0x6e; 0xc6; 0x84;
    0x18; 0xf0; 0x7d; 0xec; 0x3a; 0xdc; 0x4d; 0x20; 0x79; 0xee; 0x5f; 0x3e; 0xd7; 0xcb; 0x39; 0x48 ]%N.
(** src/sm4/sm4.c:42-85 SM4_SBOX_T *)
Definition SM4_SBOX_T : list N :=
  [ 0x8ed55b5b; 0xd0924242; 0x4deaa7a7; 0x06fdfbfb; 0xfccf3333; 0x65e28787; 0xc93df4f4; 0x6bb5dede;
    0x4e165858; 0x6eb4dada; 0x44145050; 0xcac10b0b; 0x8828a0a0; 0x17f8efef; 0x9c2cb0b0; 0x11051414;
    0x872bacac; 0xfb669d9d; 0xf2986a6a; 0xae77d9d9; 0x822aa8a8; 0x46bcfafa; 0x14041010; 0xcfc00f0f;
    0x02a8aaaa; 0x54451111; 0x5f134c4c; 0xbe269898; 0x6d482525; 0x9e841a1a; 0x1e061818; 0xfd9b6666;
    0xec9e7272; 0x4a430909; 0x10514141; 0x24f7d3d3; 0xd5934646; 0x53ecbfbf; 0xf89a6262; 0x927be9e9;
    0xff33cccc; 0x04555151; 0x270b2c2c; 0x4f420d0d; 0x59eeb7b7; 0xf3cc3f3f; 0x1caeb2b2; 0xea638989;
    0x74e79393; 0x7fb1cece; 0x6c1c7070; 0x0daba6a6; 0xedca2727; 0x28082020; 0x48eba3a3; 0xc1975656;
    0x80820202; 0xa3dc7f7f; 0xc4965252; 0x12f9ebeb; 0xa174d5d5; 0xb38d3e3e; 0xc33ffcfc; 0x3ea49a9a;
    0x5b461d1d; 0x1b071c1c; 0x3ba59e9e; 0x0cfff3f3; 0x3ff0cfcf; 0xbf72cdcd; 0x4b175c5c; 0x52b8eaea;
    0x8f810e0e; 0x3d586565; 0xcc3cf0f0; 0x7d196464; 0x7ee59b9b; 0x91871616; 0x734e3d3d; 0x08aaa2a2;
    0xc869a1a1; 0xc76aadad; 0x85830606; 0x7ab0caca; 0xb570c5c5; 0xf4659191; 0xb2d96b6b; 0xa7892e2e;
    0x18fbe3e3; 0x47e8afaf; 0x330f3c3c; 0x674a2d2d; 0xb071c1c1; 0x0e575959; 0xe99f7676; 0xe135d4d4;
    0x661e7878; 0xb4249090; 0x360e3838; 0x265f7979; 0xef628d8d; 0x38596161; 0x95d24747; 0x2aa08a8a;
    0xb1259494; 0xaa228888; 0x8c7df1f1; 0xd73becec; 0x05010404; 0xa5218484; 0x9879e1e1; 0x9b851e1e;
    0x84d75353; 0x00000000; 0x5e471919; 0x0b565d5d; 0xe39d7e7e; 0x9fd04f4f; 0xbb279c9c; 0x1a534949;
    0x7c4d3131; 0xee36d8d8; 0x0a020808; 0x7be49f9f; 0x20a28282; 0xd4c71313; 0xe8cb2323; 0xe69c7a7a;
    0x42e9abab; 0x43bdfefe; 0xa2882a2a; 0x9ad14b4b; 0x40410101; 0xdbc41f1f; 0xd838e0e0; 0x61b7d6d6;
    0x2fa18e8e; 0x2bf4dfdf; 0x3af1cbcb; 0xf6cd3b3b; 0x1dfae7e7; 0xe5608585; 0x41155454; 0x25a38686;
    0x60e38383; 0x16acbaba; 0x295c7575; 0x34a69292; 0xf7996e6e; 0xe434d0d0; 0x721a6868; 0x01545555;
    0x19afb6b6; 0xdf914e4e; 0xfa32c8c8; 0xf030c0c0; 0x21f6d7d7; 0xbc8e3232; 0x75b3c6c6; 0x6fe08f8f;
    0x691d7474; 0x2ef5dbdb; 0x6ae18b8b; 0x962eb8b8; 0x8a800a0a; 0xfe679999; 0xe2c92b2b; 0xe0618181;
    0xc0c30303; 0x8d29a4a4; 0xaf238c8c; 0x07a9aeae; 0x390d3434; 0x1f524d4d; 0x764f3939; 0xd36ebdbd;
    0x81d65757; 0xb7d86f6f; 0xeb37dcdc; 0x51441515; 0xa6dd7b7b; 0x09fef7f7; 0xb68c3a3a; 0x932fbcbc;
    0x0f030c0c; 0x03fcffff; 0xc26ba9a9; 0xba73c9c9; 0xd96cb5b5; 0xdc6db1b1; 0x375a6d6d; 0x15504545;
    0xb98f3636; 0x771b6c6c; 0x13adbebe; 0xda904a4a; 0x57b9eeee; 0xa9de7777; 0x4cbef2f2; 0x837efdfd;
    0x55114444; 0xbdda6767; 0x2c5d7171; 0x45400505; 0x631f7c7c; 0x50104040; 0x325b6969; 0xb8db6363;
    0x220a2828; 0xc5c20707; 0xf531c4c4; 0xa88a2222; 0x31a79696; 0xf9ce3737; 0x977aeded; 0x49bff6f6;
    0x992db4b4; 0xa475d1d1; 0x90d34343; 0x5a124848; 0x58bae2e2; 0x71e69797; 0x64b6d2d2; 0x70b2c2c2;
    0xad8b2626; 0xcd68a5a5; 0xcb955e5e; 0x624b2929; 0x3c0c3030; 0xce945a5a; 0xab76dddd; 0x867ff9f9;
    0xf1649595; 0x5dbbe6e6; 0x35f2c7c7; 0x2d092424; 0xd1c61717; 0xd66fb9b9; 0xdec51b1b; 0x94861212;
    0x78186060; 0x30f3c3c3; 0x897cf5f5; 0x5cefb3b3; 0xd23ae8e8; 0xacdf7373; 0x794c3535; 0xa0208080;
    0x9d78e5e5; 0x56edbbbb; 0x235e7d7d; 0xc63ef8f8; 0x8bd45f5f; 0xe7c82f2f; 0xdd39e4e4; 0x68492121 ]%N.

(** the byte (uint8_t)(X >> n) *)
Definition byte_at (X n : N) : N := N.land (N.shiftr X n) 0xff.
Definition sm4_s (b : N) : N := get SM4_S (N.to_nat b).
Definition sm4_sbox_t (b : N) : N := get SM4_SBOX_T (N.to_nat b).

(** src/sm4/sm4.c:110-115 and :180-185: bytewise substitution *)
Definition sm4_sub (X : N) : N :=
  N.lor (N.lor (N.lor (N.shiftl (sm4_s (byte_at X 24)) 24) (N.shiftl (sm4_s (byte_at X 16)) 16))
               (N.shiftl (sm4_s (byte_at X 8)) 8)) (sm4_s (byte_at X 0)).
(** src/sm4/sm4.c:108-121 SM4_T_slow *)
Definition sm4_t_slow (X : N) : N :=
  let t := sm4_sub X in
  N.lxor (N.lxor (N.lxor (N.lxor t (rotl32 t 2)) (rotl32 t 10)) (rotl32 t 18)) (rotl32 t 24).
(** src/sm4/sm4.c:123-129 SM4_T *)
Definition sm4_t (X : N) : N :=
  N.lxor (N.lxor (N.lxor (sm4_sbox_t (byte_at X 24)) (rotl32 (sm4_sbox_t (byte_at X 16)) 24))
                 (rotl32 (sm4_sbox_t (byte_at X 8)) 16)) (rotl32 (sm4_sbox_t (byte_at X 0)) 8).

(** src/sm4/sm4.c:155-156, :161-170 *)
Definition FK : list N := [ 0xa3b1bac6; 0x56aa3350; 0x677d9197; 0xb27022dc ]%N.
Definition CK : list N :=
  [ 0x00070E15; 0x1C232A31; 0x383F464D; 0x545B6269;
    0x70777E85; 0x8C939AA1; 0xA8AFB6BD; 0xC4CBD2D9;
    0xE0E7EEF5; 0xFC030A11; 0x181F262D; 0x343B4249;
    0x50575E65; 0x6C737A81; 0x888F969D; 0xA4ABB2B9;
    0xC0C7CED5; 0xDCE3EAF1; 0xF8FF060D; 0x141B2229;
    0x30373E45; 0x4C535A61; 0x686F767D; 0x848B9299;
    0xA0A7AEB5; 0xBCC3CAD1; 0xD8DFE6ED; 0xF4FB0209;
    0x10171E25; 0x2C333A41; 0x484F565D; 0x646B7279 ]%N.

(** src/sm4/sm4.c:177-194, one iteration of the key schedule loop on (K, rk);
    encmode 1 stores forwards, 0 backwards, other values store nothing (conf.h:15-16) *)
Definition sm4_ks_step (encmode : N) (s : list N * list N) (i : nat) : list N * list N :=
  let '(K, rk) := s in
  let X := N.lxor (N.lxor (N.lxor (get K ((i + 1) mod 4)) (get K ((i + 2) mod 4))) (get K ((i + 3) mod 4))) (get CK i) in
  let t := sm4_sub X in
  let t := N.lxor (N.lxor t (rotl32 t 13)) (rotl32 t 23) in
  let K' := set K (i mod 4) (N.lxor (get K (i mod 4)) t) in
  (K', if (encmode =? 1)%N then set rk i (get K' (i mod 4))
       else if (encmode =? 0)%N then set rk (31 - i) (get K' (i mod 4)) else rk).
(** src/sm4/sm4.c:146-201 aux_sm4_init_key: ctx->rk afterwards (the return value is 1).
    The realloc of the 16-byte padkey to 16 bytes inside key_padding_pkcs7 is taken not to move it. *)
Definition sm4_init_key_mode (encmode : N) (rk key : list N) : list N :=
  let pk := key_padding_pkcs7 key in
  let K := map (fun n => N.lxor (get_u32_be pk (4 * n)) (get FK n)) (seq 0 4) in
  snd (fold_left (sm4_ks_step encmode) (seq 0 32) (K, rk)).
(** src/sm4/sm4.c:131-140 (context_init zeroes rk) and :203-205 WBCRYPTO_sm4_init_key *)
Definition sm4_context_init : list N := repeat 0%N 32.
Definition sm4_init_key (rk key : list N) : list N := sm4_init_key_mode 1 rk key.

(** src/utils/padding.c:8-10, :12-14: the copy loop [dst[i] = src[i]] with every read checked against
    the memory [src] points to *)
Definition copy_loop (src : list N) (n : nat) (dst : list N) : option (list N) :=
  fold_left (fun d i => do d <- d; do x <- nth_error src i; Some (set d i x)) (seq 0 n) (Some dst).
(** src/utils/padding.c:3-23 with a caller's buffer that may be longer or shorter than srclen;
    None: a read outside the buffer *)
Definition key_padding_buf (src : list N) (srclen : nat) : option (list N) :=
  let dst := repeat 0%N 16 in
  if 16 <? srclen then copy_loop src 16 dst
  else do dst <- copy_loop src srclen dst;
       Some (if srclen <? 16
             then fold_left (fun d i => set d i (N.of_nat (16 - srclen))) (seq srclen (16 - srclen)) dst else dst).
(** src/sm4/sm4.c:146-205 on such a buffer *)
Definition sm4_init_key_buf (rk key : list N) (keylen : nat) : option (list N) :=
  do pk <- key_padding_buf key keylen; Some (sm4_init_key rk pk).

(** src/sm4/sm4.c:207-213 SM4_RNDS *)
Definition sm4_rnds (F : N -> N) (rk : list N) (k0 k1 k2 k3 : nat) (B : N * N * N * N) : N * N * N * N :=
  let '(B0, B1, B2, B3) := B in
  let B0 := N.lxor B0 (F (N.lxor (N.lxor (N.lxor B1 B2) B3) (get rk k0))) in
  let B1 := N.lxor B1 (F (N.lxor (N.lxor (N.lxor B0 B2) B3) (get rk k1))) in
  let B2 := N.lxor B2 (F (N.lxor (N.lxor (N.lxor B0 B1) B3) (get rk k2))) in
  let B3 := N.lxor B3 (F (N.lxor (N.lxor (N.lxor B0 B1) B2) (get rk k3))) in
  (B0, B1, B2, B3).
(** src/sm4/sm4.c:217-220, :235-238 loading and storing, with :92-98, :100-106 load_u32_be and store_u32_be, which
    read and write the same bytes as the macros of the other files *)
Definition sm4_load (b : list N) : N * N * N * N :=
  (get_u32_be b 0, get_u32_be b 4, get_u32_be b 8, get_u32_be b 12).
Definition sm4_store (B : N * N * N * N) : list N :=
  let '(B0, B1, B2, B3) := B in put_u32_be B3 ++ put_u32_be B2 ++ put_u32_be B1 ++ put_u32_be B0.
(** src/sm4/sm4.c:215-242 WBCRYPTO_sm4_encrypt; the 16 bytes written to out (returns 1) *)
Definition sm4_encrypt (rk b : list N) : list N :=
  let B := sm4_load b in
  let B := sm4_rnds sm4_t_slow rk 0 1 2 3 B in
  let B := sm4_rnds sm4_t rk 4 5 6 7 B in
  let B := sm4_rnds sm4_t rk 8 9 10 11 B in
  let B := sm4_rnds sm4_t rk 12 13 14 15 B in
  let B := sm4_rnds sm4_t rk 16 17 18 19 B in
  let B := sm4_rnds sm4_t rk 20 21 22 23 B in
  let B := sm4_rnds sm4_t rk 24 25 26 27 B in
  let B := sm4_rnds sm4_t_slow rk 28 29 30 31 B in
  sm4_store B.
(** src/sm4/sm4.c:244-267 WBCRYPTO_sm4_decrypt *)
Definition sm4_decrypt (rk b : list N) : list N :=
  let B := sm4_load b in
  let B := sm4_rnds sm4_t_slow rk 31 30 29 28 B in
  let B := sm4_rnds sm4_t rk 27 26 25 24 B in
  let B := sm4_rnds sm4_t rk 23 22 21 20 B in
  let B := sm4_rnds sm4_t rk 19 18 17 16 B in
  let B := sm4_rnds sm4_t rk 15 14 13 12 B in
  let B := sm4_rnds sm4_t rk 11 10 9 8 B in
  let B := sm4_rnds sm4_t rk 7 6 5 4 B in
  let B := sm4_rnds sm4_t_slow rk 3 2 1 0 B in
  sm4_store B.
