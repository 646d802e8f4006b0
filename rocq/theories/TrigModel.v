(** Model of the trigonometric functions of libm: libm/src/math/sin.rs, cos.rs, sincos.rs,
    k_sin.rs, k_cos.rs, rem_pio2.rs and rem_pio2_large.rs.
    Floats are bit patterns; a decimal literal is written as the bits of the nearest double,
    which is what rustc stores. Exception flags raised by force_eval! are not modelled. *)
From Coq Require Import ZArith List Bool.
From Verif Require Import Base FloatModel LibmModel ElemModel.
Import ListNotations.
Open Scope Z_scope.

(** rem_pio2_large.rs:31-40, the table of 16- and 32-bit targets *)
Definition IPIO2_32 : list Z := [
  0xa2f983; 0x6e4e44; 0x1529fc; 0x2757d1; 0xf534dd; 0xc0db62; 0x95993c; 0x439041; 0xfe5163;
  0xabdebb; 0xc561b7; 0x246e3a; 0x424dd2; 0xe00649; 0x2eea09; 0xd1921c; 0xfe1deb; 0x1cb129;
  0xa73ee8; 0x8235f5; 0x2ebb44; 0x84e99c; 0x7026b4; 0x5f7e41; 0x3991d6; 0x398353; 0x39f49c;
  0x845f8b; 0xbdf928; 0x3b1ff8; 0x97ffde; 0x05980f; 0xef2f11; 0x8b5a0a; 0x6d1f6d; 0x367ecf;
  0x27cb09; 0xb74f46; 0x3f669e; 0x5fea2d; 0x7527ba; 0xc7ebe5; 0xf17b3d; 0x0739f7; 0x8a5292;
  0xea6bfb; 0x5fb11f; 0x8d5d08; 0x560330; 0x46fc7b; 0x6babf0; 0xcfbc20; 0x9af436; 0x1da9e3;
  0x91615e; 0xe61b08; 0x659985; 0x5f14a0; 0x68408d; 0xffd880; 0x4d7327; 0x310606; 0x1556ca;
  0x73a8c9; 0x60e27b; 0xc08c6b].
(** rem_pio2_large.rs:43-122, the table of 64-bit targets *)
Definition IPIO2_64 : list Z := [
  0xa2f983; 0x6e4e44; 0x1529fc; 0x2757d1; 0xf534dd; 0xc0db62; 0x95993c; 0x439041; 0xfe5163;
  0xabdebb; 0xc561b7; 0x246e3a; 0x424dd2; 0xe00649; 0x2eea09; 0xd1921c; 0xfe1deb; 0x1cb129;
  0xa73ee8; 0x8235f5; 0x2ebb44; 0x84e99c; 0x7026b4; 0x5f7e41; 0x3991d6; 0x398353; 0x39f49c;
  0x845f8b; 0xbdf928; 0x3b1ff8; 0x97ffde; 0x05980f; 0xef2f11; 0x8b5a0a; 0x6d1f6d; 0x367ecf;
  0x27cb09; 0xb74f46; 0x3f669e; 0x5fea2d; 0x7527ba; 0xc7ebe5; 0xf17b3d; 0x0739f7; 0x8a5292;
  0xea6bfb; 0x5fb11f; 0x8d5d08; 0x560330; 0x46fc7b; 0x6babf0; 0xcfbc20; 0x9af436; 0x1da9e3;
  0x91615e; 0xe61b08; 0x659985; 0x5f14a0; 0x68408d; 0xffd880; 0x4d7327; 0x310606; 0x1556ca;
  0x73a8c9; 0x60e27b; 0xc08c6b; 0x47c419; 0xc367cd; 0xdce809; 0x2a8359; 0xc4768b; 0x961ca6;
  0xddaf44; 0xd15719; 0x053ea5; 0xff0705; 0x3f7e33; 0xe832c2; 0xde4f98; 0x327dbb; 0xc33d26;
  0xef6b1e; 0x5ef89f; 0x3a1f35; 0xcaf27f; 0x1d87f1; 0x21907c; 0x7c246a; 0xfa6ed5; 0x772d30;
  0x433b15; 0xc614b5; 0x9d19c3; 0xc2c4ad; 0x414d2c; 0x5d000c; 0x467d86; 0x2d71e3; 0x9ac69b;
  0x006233; 0x7cd2b4; 0x97a7b4; 0xd55537; 0xf63ed7; 0x1810a3; 0xfc764d; 0x2a9d64; 0xabd770;
  0xf87c63; 0x57b07a; 0xe71517; 0x5649c0; 0xd9d63b; 0x3884a7; 0xcb2324; 0x778ad6; 0x23545a;
  0xb91f00; 0x1b0af1; 0xdfce19; 0xff319f; 0x6a1e66; 0x615799; 0x47fbac; 0xd87f7e; 0xb76522;
  0x89e832; 0x60bfe6; 0xcdc4ef; 0x09366c; 0xd43f5d; 0xd7de16; 0xde3b58; 0x929bde; 0x2822d2;
  0xe88628; 0x4d58e2; 0x32cac6; 0x16e308; 0xcb7de0; 0x50c017; 0xa71df3; 0x5be018; 0x34132e;
  0x621283; 0x014883; 0x5b8ef5; 0x7fb0ad; 0xf2e91e; 0x434a48; 0xd36710; 0xd8ddaa; 0x425fae;
  0xce616a; 0xa4280a; 0xb499d3; 0xf2a606; 0x7f775c; 0x83c2a3; 0x883c61; 0x78738a; 0x5a8caf;
  0xbdd76f; 0x63a62d; 0xcbbff4; 0xef818d; 0x67c126; 0x45ca55; 0x36d9ca; 0xd2a828; 0x8d61c2;
  0x77c912; 0x142604; 0x9b4612; 0xc459c4; 0x44c5c8; 0x91b24d; 0xf31700; 0xad43d4; 0xe54929;
  0x10d5fd; 0xfcbe00; 0xcc941e; 0xeece70; 0xf53e13; 0x80f1ec; 0xc3e7b3; 0x28f8c7; 0x940593;
  0x3e71c1; 0xb3092e; 0xf3450b; 0x9c1288; 0x7b20ab; 0x9fb52e; 0xc29247; 0x2f327b; 0x6d550c;
  0x90a772; 0x1fe76b; 0x96cb31; 0x4a1679; 0xe27941; 0x89dff4; 0x9794e8; 0x84e6e2; 0x973199;
  0x6bed88; 0x365f5f; 0x0efdbb; 0xb49a48; 0x6ca467; 0x427271; 0x325d8d; 0xb8159f; 0x09e5bc;
  0x25318d; 0x3974f7; 0x1c0530; 0x010c0d; 0x68084b; 0x58ee2c; 0x90aa47; 0x02e774; 0x24d6bd;
  0xa67df7; 0x72486e; 0xef169f; 0xa6948e; 0xf691b4; 0x5153d1; 0xf20acf; 0x339820; 0x7e4bf5;
  0x6863b2; 0x5f3edd; 0x035d40; 0x7f8985; 0x295255; 0xc06437; 0x10d86d; 0x324832; 0x754c5b;
  0xd4714e; 0x6e5445; 0xc1090b; 0x69f52a; 0xd56614; 0x9d0727; 0x50045d; 0xdb3bb4; 0xc576ea;
  0x17f987; 0x7d6b49; 0xba271d; 0x296996; 0xacccc6; 0x5414ad; 0x6ae290; 0x89d988; 0x50722c;
  0xbea404; 0x940777; 0x7030f3; 0x27fc00; 0xa871ea; 0x49c266; 0x3de064; 0x83dd97; 0x973fa3;
  0xfd9443; 0x8c860d; 0xde4131; 0x9d3992; 0x8c70dd; 0xe7b717; 0x3bdf08; 0x2b3715; 0xa0805c;
  0x93805a; 0x921110; 0xd8e80f; 0xaf806c; 0x4bffdb; 0x0f9038; 0x761859; 0x15a562; 0xbbcb61;
  0xb989c7; 0xbd4010; 0x04f2d2; 0x277549; 0xf6b6eb; 0xbb22db; 0xaa140a; 0x2f2689; 0x768364;
  0x333b09; 0x1a940e; 0xaa3a51; 0xc2a31d; 0xaeedaf; 0x12265c; 0x4dc26d; 0x9c7a2d; 0x9756c0;
  0x833f03; 0xf6f009; 0x8c402b; 0x99316d; 0x07b439; 0x15200c; 0x5bc3d8; 0xc492f5; 0x4badc6;
  0xa5ca4e; 0xcd37a7; 0x36a9e6; 0x9492ab; 0x6842dd; 0xde6319; 0xef8c76; 0x528b68; 0x37dbfc;
  0xaba1ae; 0x3115df; 0xa1ae00; 0xdafb0c; 0x664d64; 0xb705ed; 0x306529; 0xbf5657; 0x3aff47;
  0xb9f96a; 0xf3be75; 0xdf9328; 0x3080ab; 0xf68c66; 0x15cb04; 0x0622fa; 0x1de4d9; 0xa4b33d;
  0x8f1b57; 0x09cd36; 0xe9424e; 0xa4be13; 0xb52333; 0x1aaaf0; 0xa8654f; 0xa5c1d2; 0x0f3f0b;
  0xcd785b; 0x76f923; 0x048b7b; 0x721789; 0x53a6c6; 0xe26e6f; 0x00ebef; 0x584a9b; 0xb7dac4;
  0xba66aa; 0xcfcf76; 0x1d02d1; 0x2df1b1; 0xc1998c; 0x77adc3; 0xda4886; 0xa05df7; 0xf480c6;
  0x2ff0ac; 0x9aecdd; 0xbc5c3f; 0x6dded0; 0x1fc790; 0xb6db2a; 0x3a25a3; 0x9aaf00; 0x9353ad;
  0x0457b6; 0xb42d29; 0x7e804b; 0xa707da; 0x0eaa76; 0xa1597b; 0x2a1216; 0x2db7dc; 0xfde5fa;
  0xfedb89; 0xfdbe89; 0x6c76e4; 0xfca906; 0x70803e; 0x156e85; 0xff87fd; 0x073e28; 0x336761;
  0x86182a; 0xeabd4d; 0xafe7b3; 0x6e6d8f; 0x396795; 0x5bbf31; 0x48d784; 0x16df30; 0x432dc7;
  0x356125; 0xce70c9; 0xb8cb30; 0xfd6cbf; 0xa200a4; 0xe46c05; 0xa0dd5a; 0x476f21; 0xd21262;
  0x845cb9; 0x496170; 0xe0566b; 0x015299; 0x375550; 0xb7d51e; 0xc4f133; 0x5f6e13; 0xe4305d;
  0xa92e85; 0xc3b21d; 0x3632a1; 0xa4b708; 0xd4b1ea; 0x21f716; 0xe4698f; 0x77ff27; 0x80030c;
  0x2d408d; 0xa0cd4f; 0x99a520; 0xd3a2b3; 0x0a5d2f; 0x42f9b4; 0xcbda11; 0xd0be7d; 0xc1db9b;
  0xbd17ab; 0x81a2ca; 0x5c6a08; 0x17552e; 0x550027; 0xf0147f; 0x8607e1; 0x640b14; 0x8d4196;
  0xdebe87; 0x2afdda; 0xb6256b; 0x34897b; 0xfef305; 0x9ebfb9; 0x4f6a68; 0xa82a4a; 0x5ac44f;
  0xbcf82d; 0x985ad7; 0x95c7f4; 0x8d4d0d; 0xa63a20; 0x5f57a4; 0xb13f14; 0x953880; 0x0120cc;
  0x86dd71; 0xb6dec9; 0xf560bf; 0x11654d; 0x6b0701; 0xacb08c; 0xd0c0b2; 0x485551; 0x0efb1e;
  0xc37295; 0x3b06a3; 0x3540c0; 0x7bdc06; 0xcc45e0; 0xfa294e; 0xc8cad6; 0x41f3e8; 0xde647c;
  0xd8649b; 0x31bed9; 0xc397a4; 0xd45877; 0xc5e369; 0x13daf0; 0x3c3aba; 0x461846; 0x5f7555;
  0xf5bdd2; 0xc6926e; 0x5d2eac; 0xed440e; 0x423e1c; 0x87c461; 0xe9fd29; 0xf3d6e7; 0xca7c22;
  0x35916f; 0xc5e008; 0x8dd7ff; 0xe26a6e; 0xc6fdb0; 0xc10893; 0x745d7c; 0xb2ad6b; 0x9d6ecd;
  0x7b723e; 0x6a11c6; 0xa9cff7; 0xdf7329; 0xbac9b5; 0x5100b7; 0x0db2e2; 0x24ba74; 0x607de5;
  0x8ad874; 0x2c150d; 0x0c1881; 0x94667e; 0x162901; 0x767a9f; 0xbefdfd; 0xef4556; 0x367ed9;
  0x13d9ec; 0xb9ba8b; 0xfc97c4; 0x27a831; 0xc36ef1; 0x36c594; 0x56a8d8; 0xb5a8b4; 0x0ecccf;
  0x2d8912; 0x34576f; 0x89562c; 0xe3ce99; 0xb920d6; 0xaa5e6b; 0x9c2a3e; 0xcc5f11; 0x4a0bfd;
  0xfbf4e1; 0x6d3b8e; 0x2c86e2; 0x84d4e9; 0xa9b4fc; 0xd1eeef; 0xc9352e; 0x61392f; 0x442138;
  0xc8d91b; 0x0afc81; 0x6a4afb; 0xd81c2f; 0x84b453; 0x8c994e; 0xcc2254; 0xdc552a; 0xd6c6c0;
  0x96190b; 0xb8701a; 0x649569; 0x605a26; 0xee523f; 0x0f117f; 0x11b5f4; 0xf5cbfc; 0x2dbc34;
  0xeebc34; 0xcc5de8; 0x605edd; 0x9b8e67; 0xef3392; 0xb817c9; 0x9b5861; 0xbc57e1; 0xc68351;
  0x103ed8; 0x4871dd; 0xdd1c2d; 0xa118af; 0x462c21; 0xd7f359; 0x987ad9; 0xc0549e; 0xfa864f;
  0xfc0656; 0xae79e5; 0x362289; 0x22ad38; 0xdc9367; 0xaae855; 0x382682; 0x9be7ca; 0xa40d51;
  0xb13399; 0x0ed7a9; 0x480569; 0xf0b265; 0xa7887f; 0x974c88; 0x36d1f9; 0xb39221; 0x4a827b;
  0x21cf98; 0xdc9f40; 0x5547dc; 0x3a74e1; 0x42eb67; 0xdf9dfe; 0x5fd45e; 0xa4677b; 0x7aacba;
  0xa2f655; 0x23882b; 0x55ba41; 0x086e59; 0x862a21; 0x834739; 0xe6e389; 0xd49ee5; 0x40fb49;
  0xe956ff; 0xca0f1c; 0x8a59c5; 0x2bfa94; 0xc5c1d3; 0xcfc50f; 0xae5adb; 0x86c547; 0x624385;
  0x3b8621; 0x94792c; 0x876110; 0x7b4c2a; 0x1a2c80; 0x12bf43; 0x902688; 0x893c78; 0xe4c4a8;
  0x7bdbe5; 0xc23ac4; 0xeaf426; 0x8a67f7; 0xbf920d; 0x2ba365; 0xb1933d; 0x0b7cbd; 0xdc51a4;
  0x63dd27; 0xdde169; 0x19949a; 0x9529a8; 0x28ce68; 0xb4ed09; 0x209f44; 0xca984e; 0x638270;
  0x237c7e; 0x32b90f; 0x8ef5a7; 0xe75614; 0x08f121; 0x2a9db5; 0x4d7e6f; 0x5119a5; 0xabf9b5;
  0xd6df82; 0x61dd96; 0x023616; 0x9f3ac4; 0xa1a283; 0x6ded72; 0x7a8d39; 0xa9b882; 0x5c326b;
  0x5b2746; 0xed3400; 0x7700d2; 0x55f4fc; 0x4d5901; 0x8071e0].
(** rem_pio2_large.rs:19 *)
Definition INIT_JK : list Z := [3; 4; 4; 6].
(** rem_pio2_large.rs:124-133 *)
Definition PIO2 : list Z := [
  0x3ff921fb40000000 (* 1.57079625129699707031e+00 *);
  0x3e74442d00000000 (* 7.54978941586159635335e-08 *);
  0x3cf8469880000000 (* 5.39030252995776476554e-15 *);
  0x3b78cc5160000000 (* 3.28200341580791294123e-22 *);
  0x39f01b8380000000 (* 1.27065575308067607349e-29 *);
  0x387a252040000000 (* 1.22933308981111328932e-36 *);
  0x36e3822280000000 (* 2.73370053816464559624e-44 *);
  0x3569f31d00000000 (* 2.16741683877804819444e-51 *)].
(** 0x1p24 and 0x1p-24 of rem_pio2_large.rs:236-237, 8.0 and 0.125 of line 303 *)
Definition x1p24 : Z := 0x4170000000000000.
Definition x1p_24 : Z := 0x3e70000000000000.
Definition eight : Z := 0x4020000000000000.
Definition eighth : Z := 0x3fc0000000000000.

(** rem_pio2.rs:17-38 *)
Definition TO_INT : Z := 0x4338000000000000. (* 1.5 / 2.2204460492503131e-16 *)
Definition INV_PIO2 : Z := 0x3fe45f306dc9c883. (* 6.36619772367581382433e-01 *)
Definition PIO2_1 : Z := 0x3ff921fb54400000. (* 1.57079632673412561417e+00 *)
Definition PIO2_1T : Z := 0x3dd0b4611a626331. (* 6.07710050650619224932e-11 *)
Definition PIO2_2 : Z := 0x3dd0b4611a600000. (* 6.07710050630396597660e-11 *)
Definition PIO2_2T : Z := 0x3ba3198a2e037073. (* 2.02226624879595063154e-21 *)
Definition PIO2_3 : Z := 0x3ba3198a2e000000. (* 2.02226624871116645580e-21 *)
Definition PIO2_3T : Z := 0x397b839a252049c1. (* 8.47842766036889956997e-32 *)
(** The literals 3.0 and 4.0 of rem_pio2.rs:127-151 *)
Definition three : Z := 0x4008000000000000.
Definition four : Z := 0x4010000000000000.

(** k_sin.rs:12-17 *)
Definition S1 : Z := 0xbfc5555555555549. (* -1.66666666666666324348e-01 *)
Definition S2 : Z := 0x3f8111111110f8a6. (* 8.33333333332248946124e-03 *)
Definition S3 : Z := 0xbf2a01a019c161d5. (* -1.98412698298579493134e-04 *)
Definition S4 : Z := 0x3ec71de357b1fe7d. (* 2.75573137070700676789e-06 *)
Definition S5 : Z := 0xbe5ae5e68a2b9ceb. (* -2.50507602534068634195e-08 *)
Definition S6 : Z := 0x3de5d93a5acfd57c. (* 1.58969099521155010221e-10 *)
(** k_cos.rs:12-17 *)
Definition C1 : Z := 0x3fa555555555554c. (* 4.16666666666666019037e-02 *)
Definition C2 : Z := 0xbf56c16c16c15177. (* -1.38888888888741095749e-03 *)
Definition C3 : Z := 0x3efa01a019cb1590. (* 2.48015872894767294178e-05 *)
Definition C4 : Z := 0xbe927e4f809c52ad. (* -2.75573143513906633035e-07 *)
Definition C5 : Z := 0x3e21ee9ebdb4b1c4. (* 2.08757232129817482790e-09 *)
Definition C6 : Z := 0xbda8fae9be8838d4. (* -1.13596475577881948265e-11 *)

(** The macro i! with an assignment, mod.rs:14-30, as [tab]. *)
Definition put (l : list Z) (i v : Z) : res (list Z) :=
  if (0 <=? i) && (i <? Z.of_nat (length l)) then Ok (firstn (Z.to_nat i) l ++ v :: skipn (S (Z.to_nat i)) l) else Err UB.
(** Subtraction of type usize; the width of usize does not matter for the values that occur. *)
Definition usub (a b : Z) : res Z := csub (UI 64) a b.
(** The unary minus of f64. *)
Definition fneg (x : Z) : Z := Z.lxor x (2 ^ 63).

Section Ops.
Context (o : fops) (c : icast) (tbl : list Z).
Local Notation "a +. b" := (o_add o a b) (at level 50, left associativity).
Local Notation "a -. b" := (o_sub o a b) (at level 50, left associativity).
Local Notation "a *. b" := (o_mul o a b) (at level 40, left associativity).
Local Notation "a /. b" := (o_div o a b) (at level 40, left associativity).

(** * Kernels *)
(** k_sin.rs:47-57 *)
Definition k_sin (x y iy : Z) : Z :=
  let z := x *. x in
  let w := z *. z in
  let r := S2 +. z *. (S3 +. z *. S4) +. z *. w *. (S5 +. z *. S6) in
  let v := z *. x in
  if iy =? 0 then x +. v *. (S1 +. z *. r)
  else x -. ((z *. (half *. y -. v *. r) -. y) -. v *. S1).

(** k_cos.rs:55-62 *)
Definition k_cos (x y : Z) : Z :=
  let z := x *. x in
  let w := z *. z in
  let r := z *. (C1 +. z *. (C2 +. z *. C3)) +. w *. w *. (C4 +. z *. (C5 +. z *. C6)) in
  let hz := half *. z in
  let w := one -. hz in
  w +. (((one -. w) -. hz) +. (z *. r -. x *. y)).

(** * rem_pio2_large *)
(** rem_pio2_large.rs:270-277: fill f[i..] from the table, [n] iterations *)
Fixpoint lg_fill (n : nat) (i j : Z) (f : list Z) : res (list Z) :=
  match n with
  | O => Ok f
  | S n =>
    let* v := if j <? 0 then Ok 0 else (let* t := tab tbl j in Ok (c_ofi c t)) in
    let* f := put f i v in
    let* j := cadd (SI 32) j 1 in
    lg_fill n (i + 1) j f
  end.
(** rem_pio2_large.rs:281-284 and 371-374: fw += x[j] * f[k - j], [n] iterations, where k = jx + i *)
Fixpoint lg_dot (n : nat) (j k : Z) (x f : list Z) (fw : Z) : res Z :=
  match n with
  | O => Ok fw
  | S n =>
    let* a := tab x j in
    let* d := usub k j in
    let* b := tab f d in
    lg_dot n (j + 1) k x f (fw +. a *. b)
  end.
(** rem_pio2_large.rs:280-286: q[i..], [n] iterations *)
Fixpoint lg_q (n : nat) (i jx : Z) (x f q : list Z) : res (list Z) :=
  match n with
  | O => Ok q
  | S n =>
    let* fw := lg_dot (S (Z.to_nat jx)) 0 (jx + i) x f 0 in
    let* q := put q i fw in
    lg_q n (i + 1) jx x f q
  end.
(** rem_pio2_large.rs:294-299: for j in (1..=jz).rev() *)
Fixpoint lg_distill (j : nat) (i z : Z) (q iq : list Z) : res (Z * list Z) :=
  match j with
  | O => Ok (z, iq)
  | S j =>
    let fw := c_ofi c (c_toi c (x1p_24 *. z)) in
    let* iq := put iq i (c_toi c (z -. x1p24 *. fw)) in
    let* a := tab q (Z.of_nat j) in
    let* i := cadd (SI 32) i 1 in
    lg_distill j i (a +. fw) q iq
  end.
(** rem_pio2_large.rs:302-317; returns z, n, ih and iq. The floor is libm's (floor.rs). *)
Definition lg_n (q0 jz z : Z) (iq : list Z) : res (Z * Z * Z * list Z) :=
  let* z := scalbn F64 o z q0 in
  let* fl := floor_status F64 (z *. eighth) in
  let z := z -. eight *. fst fl in
  let n := c_toi c z in
  let z := z -. c_ofi c n in
  if 0 <? q0 then
    let* k := usub jz 1 in
    let* a := tab iq k in
    let* s := csub (SI 32) 24 q0 in
    let* i := cshr (SI 32) a s in
    let* n := cadd (SI 32) n i in
    let* b := cshl (SI 32) i s in
    let* a := csub (SI 32) a b in
    let* iq := put iq k a in
    let* s := csub (SI 32) 23 q0 in
    let* ih := cshr (SI 32) a s in
    Ok (z, n, ih, iq)
  else if q0 =? 0 then
    let* k := usub jz 1 in
    let* a := tab iq k in
    let* ih := cshr (SI 32) a 23 in
    Ok (z, n, ih, iq)
  else if o_le o half z then Ok (z, n, 2, iq)
  else Ok (z, n, 0, iq).
(** rem_pio2_large.rs:323-334: for i in 0..jz; returns carry and iq *)
Fixpoint lg_flip (n : nat) (i carry : Z) (iq : list Z) : res (Z * list Z) :=
  match n with
  | O => Ok (carry, iq)
  | S n =>
    let* j := tab iq i in
    if carry =? 0 then
      if j =? 0 then lg_flip n (i + 1) carry iq
      else
        let* a := csub (SI 32) 0x1000000 j in
        let* iq := put iq i a in
        lg_flip n (i + 1) 1 iq
    else
      let* a := csub (SI 32) 0xffffff j in
      let* iq := put iq i a in
      lg_flip n (i + 1) carry iq
  end.
(** rem_pio2_large.rs:335-346: iq[jz - 1] &= mask *)
Definition lg_mask (q0 jz : Z) (iq : list Z) : res (list Z) :=
  if (q0 =? 1) || (q0 =? 2) then
    let* k := usub jz 1 in
    let* a := tab iq k in
    put iq k (Z.land a (if q0 =? 1 then 0x7fffff else 0x3fffff))
  else Ok iq.
(** rem_pio2_large.rs:319-353; returns z, n and iq *)
Definition lg_neg (q0 jz z n ih : Z) (iq : list Z) : res (Z * Z * list Z) :=
  if 0 <? ih then
    let* n := cadd (SI 32) n 1 in
    let* p := lg_flip (Z.to_nat jz) 0 0 iq in
    let* iq := lg_mask q0 jz (snd p) in
    if ih =? 2 then
      let z := one -. z in
      if fst p =? 0 then Ok (z, n, iq)
      else
        let* s := scalbn F64 o one q0 in
        Ok (z -. s, n, iq)
    else Ok (z, n, iq)
  else Ok (z, n, iq).
(** rem_pio2_large.rs:358-360: j |= iq[i] for i from i downwards, [n] iterations *)
Fixpoint lg_or (n : nat) (i : Z) (iq : list Z) (j : Z) : res Z :=
  match n with
  | O => Ok j
  | S n =>
    let* a := tab iq i in
    lg_or n (i - 1) iq (Z.lor j a)
  end.
(** rem_pio2_large.rs:363-366: the number of terms needed. The index jk - k underflows before
    the fuel runs out. *)
Fixpoint lg_k (fuel : nat) (jk k : Z) (iq : list Z) : res Z :=
  match fuel with
  | O => Err OutOfFuel
  | S fuel =>
    let* d := usub jk k in
    let* a := tab iq d in
    if a =? 0 then lg_k fuel jk (k + 1) iq else Ok k
  end.
(** rem_pio2_large.rs:368-376: [n] more terms; returns f and q *)
Fixpoint lg_extend (n : nat) (i jx jv : Z) (x f q : list Z) : res (list Z * list Z) :=
  match n with
  | O => Ok (f, q)
  | S n =>
    let* t := tab tbl (jv + i) in
    let* f := put f (jx + i) (c_ofi c t) in
    let* fw := lg_dot (S (Z.to_nat jx)) 0 (jx + i) x f 0 in
    let* q := put q i fw in
    lg_extend n (i + 1) jx jv x f q
  end.
(** rem_pio2_large.rs:290-383: the loop 'recompute; returns jz, z, n, ih, q and iq *)
Fixpoint lg_loop (fuel : nat) (jk jx jv q0 jz : Z) (x f q iq : list Z) : res (Z * Z * Z * Z * list Z * list Z) :=
  match fuel with
  | O => Err OutOfFuel
  | S fuel =>
    let* z := tab q jz in
    let* d := lg_distill (Z.to_nat jz) 0 z q iq in
    let* r := lg_n q0 jz (fst d) (snd d) in
    let '(z, n, ih, iq) := r in
    let* r := lg_neg q0 jz z n ih iq in
    let '(z, n, iq) := r in
    let* j := if o_eq o z 0 then lg_or (Z.to_nat (jz - jk)) (jz - 1) iq 0 else Ok 1 in
    if j =? 0 then
      let* k := lg_k (S (Z.to_nat jk)) jk 1 iq in
      let* e := lg_extend (Z.to_nat k) (jz + 1) jx jv x f q in
      lg_loop fuel jk jx jv q0 (jz + k) x (fst e) (snd e) iq
    else Ok (jz, z, n, ih, q, iq)
  end.
(** rem_pio2_large.rs:389-392; returns jz and q0 *)
Fixpoint lg_chop (fuel : nat) (jz q0 : Z) (iq : list Z) : res (Z * Z) :=
  match fuel with
  | O => Err OutOfFuel
  | S fuel =>
    let* a := tab iq jz in
    if a =? 0 then
      let* jz := usub jz 1 in
      let* q0 := csub (SI 32) q0 24 in
      lg_chop fuel jz q0 iq
    else Ok (jz, q0)
  end.
(** rem_pio2_large.rs:385-405; returns jz, q0 and iq *)
Definition lg_top (jz q0 z : Z) (iq : list Z) : res (Z * Z * list Z) :=
  if o_eq o z 0 then
    let* jz := usub jz 1 in
    let* q0 := csub (SI 32) q0 24 in
    let* r := lg_chop (S (Z.to_nat jz)) jz q0 iq in
    Ok (fst r, snd r, iq)
  else
    let* m := cneg (SI 32) q0 in
    let* z := scalbn F64 o z m in
    if o_le o x1p24 z then
      let fw := c_ofi c (c_toi c (x1p_24 *. z)) in
      let* iq := put iq jz (c_toi c (z -. x1p24 *. fw)) in
      let jz := jz + 1 in
      let* q0 := cadd (SI 32) q0 24 in
      let* iq := put iq jz (c_toi c fw) in
      Ok (jz, q0, iq)
    else
      let* iq := put iq jz (c_toi c z) in
      Ok (jz, q0, iq).
(** rem_pio2_large.rs:409-412: for i in (0..=jz).rev(), [n] = i + 1 *)
Fixpoint lg_chunks (n : nat) (fw : Z) (iq q : list Z) : res (list Z) :=
  match n with
  | O => Ok q
  | S n =>
    let i := Z.of_nat n in
    let* a := tab iq i in
    let* q := put q i (fw *. c_ofi c a) in
    lg_chunks n (fw *. x1p_24) iq q
  end.
(** rem_pio2_large.rs:417-420: the while loop over k *)
Fixpoint lg_pq (fuel : nat) (k jp jz i : Z) (q : list Z) (fw : Z) : res Z :=
  match fuel with
  | O => Err OutOfFuel
  | S fuel =>
    let* d := usub jz i in
    if (k <=? jp) && (k <=? d) then
      let* a := tab PIO2 k in
      let* b := tab q (i + k) in
      lg_pq fuel (k + 1) jp jz i q (fw +. a *. b)
    else Ok fw
  end.
(** rem_pio2_large.rs:415-423: for i in (0..=jz).rev(), [n] = i + 1 *)
Fixpoint lg_fq (n : nat) (jp jz : Z) (q fq : list Z) : res (list Z) :=
  match n with
  | O => Ok fq
  | S n =>
    let i := Z.of_nat n in
    let* fw := lg_pq (S (S (Z.to_nat jz))) 0 jp jz i q 0 in
    let* d := usub jz i in
    let* fq := put fq d fw in
    lg_fq n jp jz q fq
  end.
(** rem_pio2_large.rs:428-430 and 435-437: fw += fq[i] for i in (0..=jz).rev(), [n] = i + 1 *)
Fixpoint lg_sum (n : nat) (fq : list Z) (fw : Z) : res Z :=
  match n with
  | O => Ok fw
  | S n =>
    let* a := tab fq (Z.of_nat n) in
    lg_sum n fq (fw +. a)
  end.
(** rem_pio2_large.rs:440-442: fw += fq[i] upwards, [n] iterations *)
Fixpoint lg_up (n : nat) (i : Z) (fq : list Z) (fw : Z) : res Z :=
  match n with
  | O => Ok fw
  | S n =>
    let* a := tab fq i in
    lg_up n (i + 1) fq (fw +. a)
  end.
(** rem_pio2_large.rs:425-444 for prec = 0, 1 and 2; prec = 3 (lines 445-470) has no caller in
    the crate and is not modelled. *)
Definition lg_compress (prec jz ih : Z) (fq y : list Z) : res (list Z) :=
  let* s := lg_sum (S (Z.to_nat jz)) fq 0 in
  let* y := put y 0 (if ih =? 0 then s else fneg s) in
  if prec =? 0 then Ok y
  else
    let* a := tab fq 0 in
    let* t := lg_up (Z.to_nat jz) 1 fq (a -. s) in
    put y 1 (if ih =? 0 then t else fneg t).

Definition zeros20 : list Z := repeat 0 20.
(** rem_pio2_large.rs:227-478; returns n & 7 and y. The number of passes of the loop is
    bounded by fuel; the debug assertion of line 239 is made on all targets. *)
Definition rem_pio2_large (fuel : nat) (x y : list Z) (e0 prec : Z) : res (Z * list Z) :=
  let* _ := assert (e0 <=? 16360) in
  let* jk := tab INIT_JK prec in
  let jp := jk in
  let* jx := usub (Z.of_nat (length x)) 1 in
  let* d := csub (SI 32) e0 3 in
  let jv := Z.quot d 24 in
  let jv := if jv <? 0 then 0 else jv in
  let* a := cadd (SI 32) jv 1 in
  let* b := cmul (SI 32) 24 a in
  let* q0 := csub (SI 32) e0 b in
  let* j := csub (SI 32) (norm (SI 32) jv) (norm (SI 32) jx) in
  let m := jx + jk in
  let* f := lg_fill (S (Z.to_nat m)) 0 j zeros20 in
  let* q := lg_q (S (Z.to_nat jk)) 0 jx x f zeros20 in
  let* r := lg_loop fuel jk jx jv q0 jk x f q zeros20 in
  let '(jz, z, n, ih, q, iq) := r in
  let* r := lg_top jz q0 z iq in
  let '(jz, q0, iq) := r in
  let* fw := scalbn F64 o one q0 in
  let* q := lg_chunks (S (Z.to_nat jz)) fw iq q in
  let* fq := lg_fq (S (Z.to_nat jz)) jp jz q zeros20 in
  let* y := lg_compress prec jz ih fq y in
  Ok (Z.land n 7, y).

(** * rem_pio2 *)
(** rem_pio2.rs:63, 71: the biased exponent of y0 *)
Definition exp_bits (y : Z) : Z := Z.land (norm (SI 32) (Z.shiftr y 52)) 0x7ff.
(** rem_pio2.rs:51-85 *)
Definition rp_medium (x ix : Z) : res (Z * Z * Z) :=
  let tmp := x *. INV_PIO2 +. TO_INT in
  let f_n := tmp -. TO_INT in
  let n := c_toi c f_n in
  let r := x -. f_n *. PIO2_1 in
  let w := f_n *. PIO2_1T in
  let y0 := r -. w in
  let ex := norm (SI 32) (Z.shiftr ix 20) in
  let* d := csub (SI 32) ex (exp_bits y0) in
  let* p :=
    if 16 <? d then
      let t := r in
      let w := f_n *. PIO2_2 in
      let r := t -. w in
      let w := f_n *. PIO2_2T -. ((t -. r) -. w) in
      let y0 := r -. w in
      let* d := csub (SI 32) ex (exp_bits y0) in
      if 49 <? d then
        let t := r in
        let w := f_n *. PIO2_3 in
        let r := t -. w in
        let w := f_n *. PIO2_3T -. ((t -. r) -. w) in
        Ok (r, w, r -. w)
      else Ok (r, w, y0)
    else Ok (r, w, y0) in
  let '(r, w, y0) := p in
  Ok (n, y0, (r -. y0) -. w).
(** rem_pio2.rs:94-104, 105-115, 126-136, 142-152: one round, for a multiple [k] of pi/2 whose
    multiples of PIO2_1 and PIO2_1T are [p] and [t] *)
Definition rp_round (x sign k p t : Z) : res (Z * Z * Z) :=
  if sign =? 0 then
    let z := x -. p in
    let y0 := z -. t in
    Ok (k, y0, (z -. y0) -. t)
  else
    let z := x +. p in
    let y0 := z +. t in
    Ok (- k, y0, (z -. y0) +. t).
(** rem_pio2.rs:168-189 *)
Definition rp_large (fuel : nat) (x ix sign : Z) : res (Z * Z * Z) :=
  let ui := Z.land x (Z.shiftr (inot (UI 64) 1) 12) in
  let z := Z.lor ui (Z.shiftl (0x3ff + 23) 52) in
  let tx0 := c_ofi c (c_toi c z) in
  let z := (z -. tx0) *. x1p24 in
  let tx1 := c_ofi c (c_toi c z) in
  let tx2 := (z -. tx1) *. x1p24 in
  let tx := if negb (o_eq o tx2 0) then [tx0; tx1; tx2] else if negb (o_eq o tx1 0) then [tx0; tx1] else [tx0] in
  let* e0 := csub (SI 32) (Z.shiftr ix 20) (0x3ff + 23) in
  let* p := rem_pio2_large fuel tx [0; 0; 0] e0 1 in
  let* a := tab (snd p) 0 in
  let* b := tab (snd p) 1 in
  if negb (sign =? 0) then
    let* n := cneg (SI 32) (fst p) in
    Ok (n, fneg a, fneg b)
  else Ok (fst p, a, b).
(** rem_pio2.rs:45-190 *)
Definition rem_pio2 (fuel : nat) (x : Z) : res (Z * Z * Z) :=
  let sign := norm (SI 32) (Z.shiftr x 63) in
  let ix := Z.land (high_word x) 0x7fffffff in
  if ix <=? 0x400f6a7a then
    if Z.land ix 0xfffff =? 0x921fb then rp_medium x ix
    else if ix <=? 0x4002d97c then rp_round x sign 1 PIO2_1 PIO2_1T
    else rp_round x sign 2 (two *. PIO2_1) (two *. PIO2_1T)
  else if ix <=? 0x401c463b then
    if ix <=? 0x4015fdbc then
      if ix =? 0x4012d97c then rp_medium x ix
      else rp_round x sign 3 (three *. PIO2_1) (three *. PIO2_1T)
    else
      if ix =? 0x401921fb then rp_medium x ix
      else rp_round x sign 4 (four *. PIO2_1) (four *. PIO2_1T)
  else if ix <? 0x413921fb then rp_medium x ix
  else if 0x7ff00000 <=? ix then Ok (0, x -. x, x -. x)
  else rp_large fuel x ix sign.

(** * The functions *)
(** sin.rs:48-85 *)
Definition libm_sin (fuel : nat) (x : Z) : res Z :=
  let ix := Z.land (high_word x) 0x7fffffff in
  if ix <=? 0x3fe921fb then
    if ix <? 0x3e500000 then Ok x else Ok (k_sin x 0 0)
  else if 0x7ff00000 <=? ix then Ok (x -. x)
  else
    let* p := rem_pio2 fuel x in
    let '(n, y0, y1) := p in
    let k := Z.land n 3 in
    Ok (if k =? 0 then k_sin y0 y1 1
        else if k =? 1 then k_cos y0 y1
        else if k =? 2 then fneg (k_sin y0 y1 1)
        else fneg (k_cos y0 y1)).
(** cos.rs:49-77 *)
Definition libm_cos (fuel : nat) (x : Z) : res Z :=
  let ix := Z.land (high_word x) 0x7fffffff in
  if ix <=? 0x3fe921fb then
    if (ix <? 0x3e46a09e) && (c_toi c x =? 0) then Ok one else Ok (k_cos x 0)
  else if 0x7ff00000 <=? ix then Ok (x -. x)
  else
    let* p := rem_pio2 fuel x in
    let '(n, y0, y1) := p in
    let k := Z.land n 3 in
    Ok (if k =? 0 then k_cos y0 y1
        else if k =? 1 then fneg (k_sin y0 y1 1)
        else if k =? 2 then fneg (k_cos y0 y1)
        else k_sin y0 y1 1).
(** sincos.rs:19-63 *)
Definition libm_sincos (fuel : nat) (x : Z) : res (Z * Z) :=
  let ix := Z.land (high_word x) 0x7fffffff in
  if ix <=? 0x3fe921fb then
    if ix <? 0x3e46a09e then Ok (x, one) else Ok (k_sin x 0 0, k_cos x 0)
  else if 0x7ff00000 <=? ix then Ok (x -. x, x -. x)
  else
    let* p := rem_pio2 fuel x in
    let '(n, y0, y1) := p in
    let s := k_sin y0 y1 1 in
    let c := k_cos y0 y1 in
    let k := Z.land n 3 in
    Ok (if k =? 0 then (s, c)
        else if k =? 1 then (c, fneg s)
        else if k =? 2 then (fneg s, fneg c)
        else (fneg c, s)).
End Ops.
