(* Model of the 128-bit block ciphers of src/cipher.c other than AES: Camellia, Serpent and Twofish. uint32_t words are Z; round keys
   are lists. A sequence of calls on the same four registers is written as the list of the steps, run by pipe. *)
From Verif.Base Require Import Prelude.
From Verif.Model Require Import Encoding Bio Util Hash Blowfish Ciphers64.
Definition ld4 (rd32 : list Z -> Z) (src : list Z) : quad := (rd32 src, rd32 (skipn 4 src), rd32 (skipn 8 src), rd32 (skipn 12 src)).
Definition st4 (wr32 : Z -> list Z) (x : quad) : list Z := let '(a, b, c, d) := x in wr32 a ++ wr32 b ++ wr32 c ++ wr32 d.
Definition pipe {A} (steps : list (A -> A)) (x : A) : A := fold_left (fun x f => f x) steps x.
(* ~x on uint32_t *)
Definition not_w (x : Z) : Z := Z.lxor x 0xffffffff.
Definition xor_q (x y : quad) : quad := let '(a, b, c, d) := x in let '(a', b', c', d') := y in (Z.lxor a a', Z.lxor b b', Z.lxor c c', Z.lxor d d').
Definition get4 (k : list Z) (i : nat) : quad := (rd k i, rd k (i + 1), rd k (i + 2), rd k (i + 3)).

(* ---- Camellia ---- *)
(* cipher.c:1861-1865 *)
Definition camellia_sigma : list Z :=
  [0xa09e667f; 0x3bcc908b; 0xb67ae858; 0x4caa73b2; 0xc6ef372f; 0xe94f82be; 0x54ff53a5; 0xf1d36f1c;
   0x10e527fa; 0xde682d1d; 0xb05688c2; 0xb3e6c1fd].
(* cipher.c:1867-1932 *)
Definition camellia_S1 : list Z :=
  [0x70707000; 0x82828200; 0x2c2c2c00; 0xececec00; 0xb3b3b300; 0x27272700; 0xc0c0c000; 0xe5e5e500;
   0xe4e4e400; 0x85858500; 0x57575700; 0x35353500; 0xeaeaea00; 0x0c0c0c00; 0xaeaeae00; 0x41414100;
   0x23232300; 0xefefef00; 0x6b6b6b00; 0x93939300; 0x45454500; 0x19191900; 0xa5a5a500; 0x21212100;
   0xededed00; 0x0e0e0e00; 0x4f4f4f00; 0x4e4e4e00; 0x1d1d1d00; 0x65656500; 0x92929200; 0xbdbdbd00;
   0x86868600; 0xb8b8b800; 0xafafaf00; 0x8f8f8f00; 0x7c7c7c00; 0xebebeb00; 0x1f1f1f00; 0xcecece00;
   0x3e3e3e00; 0x30303000; 0xdcdcdc00; 0x5f5f5f00; 0x5e5e5e00; 0xc5c5c500; 0x0b0b0b00; 0x1a1a1a00;
   0xa6a6a600; 0xe1e1e100; 0x39393900; 0xcacaca00; 0xd5d5d500; 0x47474700; 0x5d5d5d00; 0x3d3d3d00;
   0xd9d9d900; 0x01010100; 0x5a5a5a00; 0xd6d6d600; 0x51515100; 0x56565600; 0x6c6c6c00; 0x4d4d4d00;
   0x8b8b8b00; 0x0d0d0d00; 0x9a9a9a00; 0x66666600; 0xfbfbfb00; 0xcccccc00; 0xb0b0b000; 0x2d2d2d00;
   0x74747400; 0x12121200; 0x2b2b2b00; 0x20202000; 0xf0f0f000; 0xb1b1b100; 0x84848400; 0x99999900;
   0xdfdfdf00; 0x4c4c4c00; 0xcbcbcb00; 0xc2c2c200; 0x34343400; 0x7e7e7e00; 0x76767600; 0x05050500;
   0x6d6d6d00; 0xb7b7b700; 0xa9a9a900; 0x31313100; 0xd1d1d100; 0x17171700; 0x04040400; 0xd7d7d700;
   0x14141400; 0x58585800; 0x3a3a3a00; 0x61616100; 0xdedede00; 0x1b1b1b00; 0x11111100; 0x1c1c1c00;
   0x32323200; 0x0f0f0f00; 0x9c9c9c00; 0x16161600; 0x53535300; 0x18181800; 0xf2f2f200; 0x22222200;
   0xfefefe00; 0x44444400; 0xcfcfcf00; 0xb2b2b200; 0xc3c3c300; 0xb5b5b500; 0x7a7a7a00; 0x91919100;
   0x24242400; 0x08080800; 0xe8e8e800; 0xa8a8a800; 0x60606000; 0xfcfcfc00; 0x69696900; 0x50505000;
   0xaaaaaa00; 0xd0d0d000; 0xa0a0a000; 0x7d7d7d00; 0xa1a1a100; 0x89898900; 0x62626200; 0x97979700;
   0x54545400; 0x5b5b5b00; 0x1e1e1e00; 0x95959500; 0xe0e0e000; 0xffffff00; 0x64646400; 0xd2d2d200;
   0x10101000; 0xc4c4c400; 0x00000000; 0x48484800; 0xa3a3a300; 0xf7f7f700; 0x75757500; 0xdbdbdb00;
   0x8a8a8a00; 0x03030300; 0xe6e6e600; 0xdadada00; 0x09090900; 0x3f3f3f00; 0xdddddd00; 0x94949400;
   0x87878700; 0x5c5c5c00; 0x83838300; 0x02020200; 0xcdcdcd00; 0x4a4a4a00; 0x90909000; 0x33333300;
   0x73737300; 0x67676700; 0xf6f6f600; 0xf3f3f300; 0x9d9d9d00; 0x7f7f7f00; 0xbfbfbf00; 0xe2e2e200;
   0x52525200; 0x9b9b9b00; 0xd8d8d800; 0x26262600; 0xc8c8c800; 0x37373700; 0xc6c6c600; 0x3b3b3b00;
   0x81818100; 0x96969600; 0x6f6f6f00; 0x4b4b4b00; 0x13131300; 0xbebebe00; 0x63636300; 0x2e2e2e00;
   0xe9e9e900; 0x79797900; 0xa7a7a700; 0x8c8c8c00; 0x9f9f9f00; 0x6e6e6e00; 0xbcbcbc00; 0x8e8e8e00;
   0x29292900; 0xf5f5f500; 0xf9f9f900; 0xb6b6b600; 0x2f2f2f00; 0xfdfdfd00; 0xb4b4b400; 0x59595900;
   0x78787800; 0x98989800; 0x06060600; 0x6a6a6a00; 0xe7e7e700; 0x46464600; 0x71717100; 0xbababa00;
   0xd4d4d400; 0x25252500; 0xababab00; 0x42424200; 0x88888800; 0xa2a2a200; 0x8d8d8d00; 0xfafafa00;
   0x72727200; 0x07070700; 0xb9b9b900; 0x55555500; 0xf8f8f800; 0xeeeeee00; 0xacacac00; 0x0a0a0a00;
   0x36363600; 0x49494900; 0x2a2a2a00; 0x68686800; 0x3c3c3c00; 0x38383800; 0xf1f1f100; 0xa4a4a400;
   0x40404000; 0x28282800; 0xd3d3d300; 0x7b7b7b00; 0xbbbbbb00; 0xc9c9c900; 0x43434300; 0xc1c1c100;
   0x15151500; 0xe3e3e300; 0xadadad00; 0xf4f4f400; 0x77777700; 0xc7c7c700; 0x80808000; 0x9e9e9e00].
(* cipher.c:1934-1999 *)
Definition camellia_S2 : list Z :=
  [0x00e0e0e0; 0x00050505; 0x00585858; 0x00d9d9d9; 0x00676767; 0x004e4e4e; 0x00818181; 0x00cbcbcb;
   0x00c9c9c9; 0x000b0b0b; 0x00aeaeae; 0x006a6a6a; 0x00d5d5d5; 0x00181818; 0x005d5d5d; 0x00828282;
   0x00464646; 0x00dfdfdf; 0x00d6d6d6; 0x00272727; 0x008a8a8a; 0x00323232; 0x004b4b4b; 0x00424242;
   0x00dbdbdb; 0x001c1c1c; 0x009e9e9e; 0x009c9c9c; 0x003a3a3a; 0x00cacaca; 0x00252525; 0x007b7b7b;
   0x000d0d0d; 0x00717171; 0x005f5f5f; 0x001f1f1f; 0x00f8f8f8; 0x00d7d7d7; 0x003e3e3e; 0x009d9d9d;
   0x007c7c7c; 0x00606060; 0x00b9b9b9; 0x00bebebe; 0x00bcbcbc; 0x008b8b8b; 0x00161616; 0x00343434;
   0x004d4d4d; 0x00c3c3c3; 0x00727272; 0x00959595; 0x00ababab; 0x008e8e8e; 0x00bababa; 0x007a7a7a;
   0x00b3b3b3; 0x00020202; 0x00b4b4b4; 0x00adadad; 0x00a2a2a2; 0x00acacac; 0x00d8d8d8; 0x009a9a9a;
   0x00171717; 0x001a1a1a; 0x00353535; 0x00cccccc; 0x00f7f7f7; 0x00999999; 0x00616161; 0x005a5a5a;
   0x00e8e8e8; 0x00242424; 0x00565656; 0x00404040; 0x00e1e1e1; 0x00636363; 0x00090909; 0x00333333;
   0x00bfbfbf; 0x00989898; 0x00979797; 0x00858585; 0x00686868; 0x00fcfcfc; 0x00ececec; 0x000a0a0a;
   0x00dadada; 0x006f6f6f; 0x00535353; 0x00626262; 0x00a3a3a3; 0x002e2e2e; 0x00080808; 0x00afafaf;
   0x00282828; 0x00b0b0b0; 0x00747474; 0x00c2c2c2; 0x00bdbdbd; 0x00363636; 0x00222222; 0x00383838;
   0x00646464; 0x001e1e1e; 0x00393939; 0x002c2c2c; 0x00a6a6a6; 0x00303030; 0x00e5e5e5; 0x00444444;
   0x00fdfdfd; 0x00888888; 0x009f9f9f; 0x00656565; 0x00878787; 0x006b6b6b; 0x00f4f4f4; 0x00232323;
   0x00484848; 0x00101010; 0x00d1d1d1; 0x00515151; 0x00c0c0c0; 0x00f9f9f9; 0x00d2d2d2; 0x00a0a0a0;
   0x00555555; 0x00a1a1a1; 0x00414141; 0x00fafafa; 0x00434343; 0x00131313; 0x00c4c4c4; 0x002f2f2f;
   0x00a8a8a8; 0x00b6b6b6; 0x003c3c3c; 0x002b2b2b; 0x00c1c1c1; 0x00ffffff; 0x00c8c8c8; 0x00a5a5a5;
   0x00202020; 0x00898989; 0x00000000; 0x00909090; 0x00474747; 0x00efefef; 0x00eaeaea; 0x00b7b7b7;
   0x00151515; 0x00060606; 0x00cdcdcd; 0x00b5b5b5; 0x00121212; 0x007e7e7e; 0x00bbbbbb; 0x00292929;
   0x000f0f0f; 0x00b8b8b8; 0x00070707; 0x00040404; 0x009b9b9b; 0x00949494; 0x00212121; 0x00666666;
   0x00e6e6e6; 0x00cecece; 0x00ededed; 0x00e7e7e7; 0x003b3b3b; 0x00fefefe; 0x007f7f7f; 0x00c5c5c5;
   0x00a4a4a4; 0x00373737; 0x00b1b1b1; 0x004c4c4c; 0x00919191; 0x006e6e6e; 0x008d8d8d; 0x00767676;
   0x00030303; 0x002d2d2d; 0x00dedede; 0x00969696; 0x00262626; 0x007d7d7d; 0x00c6c6c6; 0x005c5c5c;
   0x00d3d3d3; 0x00f2f2f2; 0x004f4f4f; 0x00191919; 0x003f3f3f; 0x00dcdcdc; 0x00797979; 0x001d1d1d;
   0x00525252; 0x00ebebeb; 0x00f3f3f3; 0x006d6d6d; 0x005e5e5e; 0x00fbfbfb; 0x00696969; 0x00b2b2b2;
   0x00f0f0f0; 0x00313131; 0x000c0c0c; 0x00d4d4d4; 0x00cfcfcf; 0x008c8c8c; 0x00e2e2e2; 0x00757575;
   0x00a9a9a9; 0x004a4a4a; 0x00575757; 0x00848484; 0x00111111; 0x00454545; 0x001b1b1b; 0x00f5f5f5;
   0x00e4e4e4; 0x000e0e0e; 0x00737373; 0x00aaaaaa; 0x00f1f1f1; 0x00dddddd; 0x00595959; 0x00141414;
   0x006c6c6c; 0x00929292; 0x00545454; 0x00d0d0d0; 0x00787878; 0x00707070; 0x00e3e3e3; 0x00494949;
   0x00808080; 0x00505050; 0x00a7a7a7; 0x00f6f6f6; 0x00777777; 0x00939393; 0x00868686; 0x00838383;
   0x002a2a2a; 0x00c7c7c7; 0x005b5b5b; 0x00e9e9e9; 0x00eeeeee; 0x008f8f8f; 0x00010101; 0x003d3d3d].
(* cipher.c:2001-2066 *)
Definition camellia_S3 : list Z :=
  [0x38003838; 0x41004141; 0x16001616; 0x76007676; 0xd900d9d9; 0x93009393; 0x60006060; 0xf200f2f2;
   0x72007272; 0xc200c2c2; 0xab00abab; 0x9a009a9a; 0x75007575; 0x06000606; 0x57005757; 0xa000a0a0;
   0x91009191; 0xf700f7f7; 0xb500b5b5; 0xc900c9c9; 0xa200a2a2; 0x8c008c8c; 0xd200d2d2; 0x90009090;
   0xf600f6f6; 0x07000707; 0xa700a7a7; 0x27002727; 0x8e008e8e; 0xb200b2b2; 0x49004949; 0xde00dede;
   0x43004343; 0x5c005c5c; 0xd700d7d7; 0xc700c7c7; 0x3e003e3e; 0xf500f5f5; 0x8f008f8f; 0x67006767;
   0x1f001f1f; 0x18001818; 0x6e006e6e; 0xaf00afaf; 0x2f002f2f; 0xe200e2e2; 0x85008585; 0x0d000d0d;
   0x53005353; 0xf000f0f0; 0x9c009c9c; 0x65006565; 0xea00eaea; 0xa300a3a3; 0xae00aeae; 0x9e009e9e;
   0xec00ecec; 0x80008080; 0x2d002d2d; 0x6b006b6b; 0xa800a8a8; 0x2b002b2b; 0x36003636; 0xa600a6a6;
   0xc500c5c5; 0x86008686; 0x4d004d4d; 0x33003333; 0xfd00fdfd; 0x66006666; 0x58005858; 0x96009696;
   0x3a003a3a; 0x09000909; 0x95009595; 0x10001010; 0x78007878; 0xd800d8d8; 0x42004242; 0xcc00cccc;
   0xef00efef; 0x26002626; 0xe500e5e5; 0x61006161; 0x1a001a1a; 0x3f003f3f; 0x3b003b3b; 0x82008282;
   0xb600b6b6; 0xdb00dbdb; 0xd400d4d4; 0x98009898; 0xe800e8e8; 0x8b008b8b; 0x02000202; 0xeb00ebeb;
   0x0a000a0a; 0x2c002c2c; 0x1d001d1d; 0xb000b0b0; 0x6f006f6f; 0x8d008d8d; 0x88008888; 0x0e000e0e;
   0x19001919; 0x87008787; 0x4e004e4e; 0x0b000b0b; 0xa900a9a9; 0x0c000c0c; 0x79007979; 0x11001111;
   0x7f007f7f; 0x22002222; 0xe700e7e7; 0x59005959; 0xe100e1e1; 0xda00dada; 0x3d003d3d; 0xc800c8c8;
   0x12001212; 0x04000404; 0x74007474; 0x54005454; 0x30003030; 0x7e007e7e; 0xb400b4b4; 0x28002828;
   0x55005555; 0x68006868; 0x50005050; 0xbe00bebe; 0xd000d0d0; 0xc400c4c4; 0x31003131; 0xcb00cbcb;
   0x2a002a2a; 0xad00adad; 0x0f000f0f; 0xca00caca; 0x70007070; 0xff00ffff; 0x32003232; 0x69006969;
   0x08000808; 0x62006262; 0x00000000; 0x24002424; 0xd100d1d1; 0xfb00fbfb; 0xba00baba; 0xed00eded;
   0x45004545; 0x81008181; 0x73007373; 0x6d006d6d; 0x84008484; 0x9f009f9f; 0xee00eeee; 0x4a004a4a;
   0xc300c3c3; 0x2e002e2e; 0xc100c1c1; 0x01000101; 0xe600e6e6; 0x25002525; 0x48004848; 0x99009999;
   0xb900b9b9; 0xb300b3b3; 0x7b007b7b; 0xf900f9f9; 0xce00cece; 0xbf00bfbf; 0xdf00dfdf; 0x71007171;
   0x29002929; 0xcd00cdcd; 0x6c006c6c; 0x13001313; 0x64006464; 0x9b009b9b; 0x63006363; 0x9d009d9d;
   0xc000c0c0; 0x4b004b4b; 0xb700b7b7; 0xa500a5a5; 0x89008989; 0x5f005f5f; 0xb100b1b1; 0x17001717;
   0xf400f4f4; 0xbc00bcbc; 0xd300d3d3; 0x46004646; 0xcf00cfcf; 0x37003737; 0x5e005e5e; 0x47004747;
   0x94009494; 0xfa00fafa; 0xfc00fcfc; 0x5b005b5b; 0x97009797; 0xfe00fefe; 0x5a005a5a; 0xac00acac;
   0x3c003c3c; 0x4c004c4c; 0x03000303; 0x35003535; 0xf300f3f3; 0x23002323; 0xb800b8b8; 0x5d005d5d;
   0x6a006a6a; 0x92009292; 0xd500d5d5; 0x21002121; 0x44004444; 0x51005151; 0xc600c6c6; 0x7d007d7d;
   0x39003939; 0x83008383; 0xdc00dcdc; 0xaa00aaaa; 0x7c007c7c; 0x77007777; 0x56005656; 0x05000505;
   0x1b001b1b; 0xa400a4a4; 0x15001515; 0x34003434; 0x1e001e1e; 0x1c001c1c; 0xf800f8f8; 0x52005252;
   0x20002020; 0x14001414; 0xe900e9e9; 0xbd00bdbd; 0xdd00dddd; 0xe400e4e4; 0xa100a1a1; 0xe000e0e0;
   0x8a008a8a; 0xf100f1f1; 0xd600d6d6; 0x7a007a7a; 0xbb00bbbb; 0xe300e3e3; 0x40004040; 0x4f004f4f].
(* cipher.c:2068-2133 *)
Definition camellia_S4 : list Z :=
  [0x70700070; 0x2c2c002c; 0xb3b300b3; 0xc0c000c0; 0xe4e400e4; 0x57570057; 0xeaea00ea; 0xaeae00ae;
   0x23230023; 0x6b6b006b; 0x45450045; 0xa5a500a5; 0xeded00ed; 0x4f4f004f; 0x1d1d001d; 0x92920092;
   0x86860086; 0xafaf00af; 0x7c7c007c; 0x1f1f001f; 0x3e3e003e; 0xdcdc00dc; 0x5e5e005e; 0x0b0b000b;
   0xa6a600a6; 0x39390039; 0xd5d500d5; 0x5d5d005d; 0xd9d900d9; 0x5a5a005a; 0x51510051; 0x6c6c006c;
   0x8b8b008b; 0x9a9a009a; 0xfbfb00fb; 0xb0b000b0; 0x74740074; 0x2b2b002b; 0xf0f000f0; 0x84840084;
   0xdfdf00df; 0xcbcb00cb; 0x34340034; 0x76760076; 0x6d6d006d; 0xa9a900a9; 0xd1d100d1; 0x04040004;
   0x14140014; 0x3a3a003a; 0xdede00de; 0x11110011; 0x32320032; 0x9c9c009c; 0x53530053; 0xf2f200f2;
   0xfefe00fe; 0xcfcf00cf; 0xc3c300c3; 0x7a7a007a; 0x24240024; 0xe8e800e8; 0x60600060; 0x69690069;
   0xaaaa00aa; 0xa0a000a0; 0xa1a100a1; 0x62620062; 0x54540054; 0x1e1e001e; 0xe0e000e0; 0x64640064;
   0x10100010; 0x00000000; 0xa3a300a3; 0x75750075; 0x8a8a008a; 0xe6e600e6; 0x09090009; 0xdddd00dd;
   0x87870087; 0x83830083; 0xcdcd00cd; 0x90900090; 0x73730073; 0xf6f600f6; 0x9d9d009d; 0xbfbf00bf;
   0x52520052; 0xd8d800d8; 0xc8c800c8; 0xc6c600c6; 0x81810081; 0x6f6f006f; 0x13130013; 0x63630063;
   0xe9e900e9; 0xa7a700a7; 0x9f9f009f; 0xbcbc00bc; 0x29290029; 0xf9f900f9; 0x2f2f002f; 0xb4b400b4;
   0x78780078; 0x06060006; 0xe7e700e7; 0x71710071; 0xd4d400d4; 0xabab00ab; 0x88880088; 0x8d8d008d;
   0x72720072; 0xb9b900b9; 0xf8f800f8; 0xacac00ac; 0x36360036; 0x2a2a002a; 0x3c3c003c; 0xf1f100f1;
   0x40400040; 0xd3d300d3; 0xbbbb00bb; 0x43430043; 0x15150015; 0xadad00ad; 0x77770077; 0x80800080;
   0x82820082; 0xecec00ec; 0x27270027; 0xe5e500e5; 0x85850085; 0x35350035; 0x0c0c000c; 0x41410041;
   0xefef00ef; 0x93930093; 0x19190019; 0x21210021; 0x0e0e000e; 0x4e4e004e; 0x65650065; 0xbdbd00bd;
   0xb8b800b8; 0x8f8f008f; 0xebeb00eb; 0xcece00ce; 0x30300030; 0x5f5f005f; 0xc5c500c5; 0x1a1a001a;
   0xe1e100e1; 0xcaca00ca; 0x47470047; 0x3d3d003d; 0x01010001; 0xd6d600d6; 0x56560056; 0x4d4d004d;
   0x0d0d000d; 0x66660066; 0xcccc00cc; 0x2d2d002d; 0x12120012; 0x20200020; 0xb1b100b1; 0x99990099;
   0x4c4c004c; 0xc2c200c2; 0x7e7e007e; 0x05050005; 0xb7b700b7; 0x31310031; 0x17170017; 0xd7d700d7;
   0x58580058; 0x61610061; 0x1b1b001b; 0x1c1c001c; 0x0f0f000f; 0x16160016; 0x18180018; 0x22220022;
   0x44440044; 0xb2b200b2; 0xb5b500b5; 0x91910091; 0x08080008; 0xa8a800a8; 0xfcfc00fc; 0x50500050;
   0xd0d000d0; 0x7d7d007d; 0x89890089; 0x97970097; 0x5b5b005b; 0x95950095; 0xffff00ff; 0xd2d200d2;
   0xc4c400c4; 0x48480048; 0xf7f700f7; 0xdbdb00db; 0x03030003; 0xdada00da; 0x3f3f003f; 0x94940094;
   0x5c5c005c; 0x02020002; 0x4a4a004a; 0x33330033; 0x67670067; 0xf3f300f3; 0x7f7f007f; 0xe2e200e2;
   0x9b9b009b; 0x26260026; 0x37370037; 0x3b3b003b; 0x96960096; 0x4b4b004b; 0xbebe00be; 0x2e2e002e;
   0x79790079; 0x8c8c008c; 0x6e6e006e; 0x8e8e008e; 0xf5f500f5; 0xb6b600b6; 0xfdfd00fd; 0x59590059;
   0x98980098; 0x6a6a006a; 0x46460046; 0xbaba00ba; 0x25250025; 0x42420042; 0xa2a200a2; 0xfafa00fa;
   0x07070007; 0x55550055; 0xeeee00ee; 0x0a0a000a; 0x49490049; 0x68680068; 0x38380038; 0xa4a400a4;
   0x28280028; 0x7b7b007b; 0xc9c900c9; 0xc1c100c1; 0xe3e300e3; 0xf4f400f4; 0xc7c700c7; 0x9e9e009e].
(* the macro F (2135-2155), for (r0, r1, r2, r3) or, when sw, for (r2, r3, r0, r1) *)
Definition cam_z0 (t0 : Z) : Z :=
  Z.lxor (Z.lxor (Z.lxor (rd camellia_S4 (Z.to_nat (byte_of t0 0))) (rd camellia_S3 (Z.to_nat (byte_of t0 8)))) (rd camellia_S2 (Z.to_nat (byte_of t0 16))))
    (rd camellia_S1 (Z.to_nat (byte_of t0 24))).
Definition cam_z1 (t1 : Z) : Z :=
  Z.lxor (Z.lxor (Z.lxor (rd camellia_S1 (Z.to_nat (byte_of t1 0))) (rd camellia_S4 (Z.to_nat (byte_of t1 8)))) (rd camellia_S3 (Z.to_nat (byte_of t1 16))))
    (rd camellia_S2 (Z.to_nat (byte_of t1 24))).
Definition cam_F1 (x : quad) (k0 k1 : Z) : quad :=
  let '(r0, r1, r2, r3) := x in
  let z := cam_z0 (Z.lxor k0 r0) in
  let r3 := Z.lxor r3 (rotr32 z 8) in
  let z := Z.lxor z (cam_z1 (Z.lxor k1 r1)) in
  (r0, r1, Z.lxor r2 z, Z.lxor r3 z).
Definition swap2 (x : quad) : quad := let '(a, b, c, d) := x in (c, d, a, b).
Definition cam_F (sw : bool) (k : list Z) (i j : nat) (x : quad) : quad :=
  if sw then swap2 (cam_F1 (swap2 x) (rd k i) (rd k j)) else cam_F1 x (rd k i) (rd k j).
(* the macro ROTL128 (2157-2164) and its use with the registers renamed from c *)
Definition rotl128 (x : quad) (n : Z) : quad :=
  let '(s0, s1, s2, s3) := x in
  let t := shr s0 (32 - n) in
  (Z.lor (shl32 s0 n) (shr s1 (32 - n)), Z.lor (shl32 s1 n) (shr s2 (32 - n)), Z.lor (shl32 s2 n) (shr s3 (32 - n)), Z.lor (shl32 s3 n) t).
Definition rot1 (x : quad) : quad := let '(a, b, c, d) := x in (b, c, d, a).
Definition unrot1 (x : quad) : quad := let '(a, b, c, d) := x in (d, a, b, c).
(* the steps of the key schedules, on the four registers s and the array k: F with constants of sigma; s0 ^= k[i], ..., s3 ^= k[i + 3];
   k[i] = s_c, ..., n words; ROTL128 from register c; s0 = k[i], ..., s3 = k[i + 3] *)
Definition cam_kF (sw : bool) (i j : nat) (x : quad * list Z) : quad * list Z := (cam_F sw camellia_sigma i j (fst x), snd x).
Definition cam_kxor (i : nat) (x : quad * list Z) : quad * list Z := (xor_q (fst x) (get4 (snd x) i), snd x).
Definition cam_reg (x : quad) (c : nat) : Z := let '(a, b, y, d) := x in nth (c mod 4) [a; b; y; d] 0.
Definition cam_kput (n i c : nat) (x : quad * list Z) : quad * list Z := (fst x, fold_left (fun k m => upd k (i + m) (cam_reg (fst x) (c + m))) (seq 0 n) (snd x)).
Definition cam_krot (c : nat) (n : Z) (x : quad * list Z) : quad * list Z := (Nat.iter c unrot1 (rotl128 (Nat.iter c rot1 (fst x)) n), snd x).
Definition cam_kget (i : nat) (x : quad * list Z) : quad * list Z := (get4 (snd x) i, snd x).
(* camellia128_init (2166-2284); the key words are stored before the first step *)
Definition camellia128_steps : list (quad * list Z -> quad * list Z) :=
  ([cam_kF false 0 1; cam_kF true 2 3; cam_kxor 0; cam_kF false 4 5; cam_kF true 6 7; cam_kput 4 4 0;
    cam_krot 0 15; cam_kput 4 12 0; cam_krot 0 15; cam_kput 4 16 0; cam_krot 0 15; cam_kput 2 24 0;
    cam_krot 0 15; cam_kput 4 28 0; cam_krot 1 2; cam_kput 4 40 1; cam_krot 1 17; cam_kput 4 48 1;
    cam_kget 0; cam_krot 0 15; cam_kput 4 8 0; cam_krot 0 30; cam_kput 4 20 0; cam_krot 0 15;
    cam_kput 2 26 2; cam_krot 0 17; cam_kput 4 32 0; cam_krot 0 17; cam_kput 4 36 0; cam_krot 0 17;
    cam_kput 4 44 0]).
Definition camellia128_init (key : list Z) : list Z :=
  let s := ld4 read32be key in
  snd (pipe camellia128_steps (s, upd (upd (upd (upd (repeat 0 68) 0 (cam_reg s 0)) 1 (cam_reg s 1)) 2 (cam_reg s 2)) 3 (cam_reg s 3))).
(* camellia256_init (2410-2590), key_len 24 or 32 *)
Definition camellia256_steps : list (quad * list Z -> quad * list Z) :=
  ([cam_kF false 0 1; cam_kF true 2 3; cam_kxor 0; cam_kF false 4 5; cam_kF true 6 7; cam_kput 4 12 0;
    cam_kxor 8; cam_kF false 8 9; cam_kF true 10 11; cam_kput 4 4 0; cam_krot 0 30; cam_kput 4 20 0;
    cam_krot 0 30; cam_kput 4 40 0; cam_krot 1 19; cam_kput 4 64 1; cam_kget 8; cam_krot 0 15;
    cam_kput 4 8 0; cam_krot 0 15; cam_kput 4 16 0; cam_krot 0 30; cam_kput 4 36 0; cam_krot 1 2;
    cam_kput 4 52 1; cam_kget 12; cam_krot 0 15; cam_kput 4 12 0; cam_krot 0 30; cam_kput 4 28 0;
    cam_kput 4 48 1; cam_krot 1 17; cam_kput 4 56 1; cam_kget 0; cam_krot 1 13; cam_kput 4 24 1;
    cam_krot 1 15; cam_kput 4 32 1; cam_krot 1 17; cam_kput 4 44 1; cam_krot 2 2; cam_kput 4 60 2]).
Definition camellia256_init (key : list Z) (long : bool) : list Z :=
  let k := repeat 0 68 in
  let w i := read32be (skipn i key) in
  let k := upd (upd (upd (upd k 0 (w 0%nat)) 1 (w 4%nat)) 2 (w 8%nat)) 3 (w 12%nat) in
  let k := upd (upd k 8 (w 16%nat)) 9 (w 20%nat) in
  let k := if long then upd (upd k 10 (w 24%nat)) 11 (w 28%nat) else upd (upd k 10 (not_w (rd k 8))) 11 (not_w (rd k 9)) in
  snd (pipe camellia256_steps (xor_q (get4 k 8) (get4 k 0), k)).
(* the two layers FL of the round functions (2308-2313 and the like) *)
Definition cam_FL (k : list Z) (a b c d : nat) (x : quad) : quad :=
  let '(r0, r1, r2, r3) := x in
  let r1 := Z.lxor r1 (rotl32 (Z.land r0 (rd k a)) 1) in
  let r2 := Z.lxor r2 (Z.lor r3 (rd k b)) in
  let r0 := Z.lxor r0 (Z.lor r1 (rd k c)) in
  let r3 := Z.lxor r3 (rotl32 (Z.land r2 (rd k d)) 1) in
  (r0, r1, r2, r3).
(* the xor with four words of the key: r0 with k[a], r1 with k[b], r2 with k[c], r3 with k[d] *)
Definition cam_white (k : list Z) (a b c d : nat) (x : quad) : quad := xor_q x (rd k a, rd k b, rd k c, rd k d).
(* camellia128_encrypt (2286-2346): the words are written in the order r2, r3, r0, r1 *)
Definition camellia128_encrypt_steps (k : list Z) : list (quad -> quad) :=
  [cam_white k 0 1 2 3;
    cam_F false k 4 5; cam_F true k 6 7; cam_F false k 8 9; cam_F true k 10 11; cam_F false k 12 13; cam_F true k 14 15;
    cam_FL k 16 19 17 18; cam_F false k 20 21; cam_F true k 22 23; cam_F false k 24 25; cam_F true k 26 27; cam_F false k 28 29;
    cam_F true k 30 31; cam_FL k 32 35 33 34; cam_F false k 36 37; cam_F true k 38 39; cam_F false k 40 41; cam_F true k 42 43;
    cam_F false k 44 45; cam_F true k 46 47;
   cam_white k 50 51 48 49].
Definition camellia128_encrypt (k src : list Z) : list Z := st4 write32be (swap2 (pipe (camellia128_encrypt_steps k) (ld4 read32be src))).
(* camellia128_decrypt (2348-2408): the words are written in the order r2, r3, r0, r1 *)
Definition camellia128_decrypt_steps (k : list Z) : list (quad -> quad) :=
  [cam_white k 48 49 50 51;
    cam_F false k 46 47; cam_F true k 44 45; cam_F false k 42 43; cam_F true k 40 41; cam_F false k 38 39; cam_F true k 36 37;
    cam_FL k 34 33 35 32; cam_F false k 30 31; cam_F true k 28 29; cam_F false k 26 27; cam_F true k 24 25; cam_F false k 22 23;
    cam_F true k 20 21; cam_FL k 18 17 19 16; cam_F false k 14 15; cam_F true k 12 13; cam_F false k 10 11; cam_F true k 8 9;
    cam_F false k 6 7; cam_F true k 4 5;
   cam_white k 2 3 0 1].
Definition camellia128_decrypt (k src : list Z) : list Z := st4 write32be (swap2 (pipe (camellia128_decrypt_steps k) (ld4 read32be src))).
(* camellia256_encrypt (2592-2666): the words are written in the order r2, r3, r0, r1 *)
Definition camellia256_encrypt_steps (k : list Z) : list (quad -> quad) :=
  [cam_white k 0 1 2 3;
    cam_F false k 4 5; cam_F true k 6 7; cam_F false k 8 9; cam_F true k 10 11; cam_F false k 12 13; cam_F true k 14 15;
    cam_FL k 16 19 17 18; cam_F false k 20 21; cam_F true k 22 23; cam_F false k 24 25; cam_F true k 26 27; cam_F false k 28 29;
    cam_F true k 30 31; cam_FL k 32 35 33 34; cam_F false k 36 37; cam_F true k 38 39; cam_F false k 40 41; cam_F true k 42 43;
    cam_F false k 44 45; cam_F true k 46 47; cam_FL k 48 51 49 50; cam_F false k 52 53; cam_F true k 54 55; cam_F false k 56 57;
    cam_F true k 58 59; cam_F false k 60 61; cam_F true k 62 63;
   cam_white k 66 67 64 65].
Definition camellia256_encrypt (k src : list Z) : list Z := st4 write32be (swap2 (pipe (camellia256_encrypt_steps k) (ld4 read32be src))).
(* camellia256_decrypt (2668-2742): the words are written in the order r2, r3, r0, r1 *)
Definition camellia256_decrypt_steps (k : list Z) : list (quad -> quad) :=
  [cam_white k 64 65 66 67;
    cam_F false k 62 63; cam_F true k 60 61; cam_F false k 58 59; cam_F true k 56 57; cam_F false k 54 55; cam_F true k 52 53;
    cam_FL k 50 49 51 48; cam_F false k 46 47; cam_F true k 44 45; cam_F false k 42 43; cam_F true k 40 41; cam_F false k 38 39;
    cam_F true k 36 37; cam_FL k 34 33 35 32; cam_F false k 30 31; cam_F true k 28 29; cam_F false k 26 27; cam_F true k 24 25;
    cam_F false k 22 23; cam_F true k 20 21; cam_FL k 18 17 19 16; cam_F false k 14 15; cam_F true k 12 13; cam_F false k 10 11;
    cam_F true k 8 9; cam_F false k 6 7; cam_F true k 4 5;
   cam_white k 2 3 0 1].
Definition camellia256_decrypt (k src : list Z) : list Z := st4 write32be (swap2 (pipe (camellia256_decrypt_steps k) (ld4 read32be src))).
Record camellia_t := MkCamellia { cam_bits : Z; cam_key : list Z }.
(* camellia_init (2747-2763) *)
Definition camellia_init (bits : Z) (key : list Z) : outcome camellia_t :=
  if bits =? 128 then Ok (MkCamellia 128 (camellia128_init key))
  else if bits =? 192 then Ok (MkCamellia 192 (camellia256_init key false))
  else if bits =? 256 then Ok (MkCamellia 256 (camellia256_init key true))
  else Abort.
(* camellia_encrypt (2765-2773), camellia_decrypt (2775-2783) *)
Definition camellia_encrypt (c : camellia_t) (src : list Z) : list Z :=
  if cam_bits c =? 128 then camellia128_encrypt (cam_key c) src else camellia256_encrypt (cam_key c) src.
Definition camellia_decrypt (c : camellia_t) (src : list Z) : list Z :=
  if cam_bits c =? 128 then camellia128_decrypt (cam_key c) src else camellia256_decrypt (cam_key c) src.

(* ---- Serpent ---- *)
(* linear (4337-4350) *)
Definition serpent_linear (x : quad) : quad :=
  let '(v0, v1, v2, v3) := x in
  let t0 := rotl32 v0 13 in
  let t2 := rotl32 v2 3 in
  let t1 := Z.lxor (Z.lxor v1 t0) t2 in
  let t3 := Z.lxor (Z.lxor v3 t2) (shl32 t0 3) in
  let v1 := rotl32 t1 1 in
  let v3 := rotl32 t3 7 in
  let t0 := Z.lxor t0 (Z.lxor v1 v3) in
  let t2 := Z.lxor t2 (Z.lxor v3 (shl32 v1 7)) in
  (rotl32 t0 5, v1, rotl32 t2 22, v3).
(* linearinv (4352-4366) *)
Definition serpent_linearinv (x : quad) : quad :=
  let '(v0, v1, v2, v3) := x in
  let t2 := rotr32 v2 22 in
  let t0 := rotr32 v0 5 in
  let t2 := Z.lxor t2 (Z.lxor v3 (shl32 v1 7)) in
  let t0 := Z.lxor t0 (Z.lxor v1 v3) in
  let t3 := rotr32 v3 7 in
  let t1 := rotr32 v1 1 in
  let v3 := Z.lxor (Z.lxor t3 t2) (shl32 t0 3) in
  let v1 := Z.lxor (Z.lxor t1 t0) t2 in
  (rotr32 t0 13, v1, rotr32 t2 3, v3).
(* sb0 (4368-4381) *)
Definition serpent_sb0 (x : quad) : quad :=
  let '(r0, r1, r2, r3) := x in
  let t0 := Z.lxor r0 r3 in
  let t1 := Z.lxor r2 t0 in
  let t2 := Z.lxor r1 t1 in
  let r3 := Z.lxor (Z.land r0 r3) t2 in
  let t3 := Z.lxor r0 (Z.land r1 t0) in
  let r2 := Z.lxor t2 (Z.lor r2 t3) in
  let t4 := Z.land r3 (Z.lxor t1 t3) in
  let r1 := Z.lxor (not_w t1) t4 in
  let r0 := Z.lxor t4 (not_w t3) in
  (r0, r1, r2, r3).
(* sb0inv (4383-4396) *)
Definition serpent_sb0inv (x : quad) : quad :=
  let '(r0, r1, r2, r3) := x in
  let t0 := not_w r0 in
  let t1 := Z.lxor r0 r1 in
  let t2 := Z.lxor r3 (Z.lor t0 t1) in
  let t3 := Z.lxor r2 t2 in
  let r2 := Z.lxor t1 t3 in
  let t4 := Z.lxor t0 (Z.land r3 t1) in
  let r1 := Z.lxor t2 (Z.land r2 t4) in
  let r3 := Z.lxor (Z.land r0 t2) (Z.lor t3 r1) in
  let r0 := Z.lxor r3 (Z.lxor t3 t4) in
  (r0, r1, r2, r3).
(* sb1 (4398-4411) *)
Definition serpent_sb1 (x : quad) : quad :=
  let '(r0, r1, r2, r3) := x in
  let t0 := Z.lxor r1 (not_w r0) in
  let t1 := Z.lxor r2 (Z.lor r0 t0) in
  let r2 := Z.lxor r3 t1 in
  let t2 := Z.lxor r1 (Z.lor r3 t0) in
  let t3 := Z.lxor t0 r2 in
  let r3 := Z.lxor t3 (Z.land t1 t2) in
  let t4 := Z.lxor t1 t2 in
  let r1 := Z.lxor r3 t4 in
  let r0 := Z.lxor t1 (Z.land t3 t4) in
  (r0, r1, r2, r3).
(* sb1inv (4413-4428) *)
Definition serpent_sb1inv (x : quad) : quad :=
  let '(r0, r1, r2, r3) := x in
  let t0 := Z.lxor r1 r3 in
  let t1 := Z.lxor r0 (Z.land r1 t0) in
  let t2 := Z.lxor t0 t1 in
  let r3 := Z.lxor r2 t2 in
  let t3 := Z.lxor r1 (Z.land t0 t1) in
  let t4 := Z.lor r3 t3 in
  let r1 := Z.lxor t1 t4 in
  let t5 := not_w r1 in
  let t6 := Z.lxor r3 t3 in
  let r0 := Z.lxor t5 t6 in
  let r2 := Z.lxor t2 (Z.lor t5 t6) in
  (r0, r1, r2, r3).
(* sb2 (4430-4446) *)
Definition serpent_sb2 (x : quad) : quad :=
  let '(r0, r1, r2, r3) := x in
  let v0 := r0 in
  let v3 := r3 in
  let t0 := not_w v0 in
  let t1 := Z.lxor r1 v3 in
  let t2 := Z.land r2 t0 in
  let r0 := Z.lxor t1 t2 in
  let t3 := Z.lxor r2 t0 in
  let t4 := Z.lxor r2 r0 in
  let t5 := Z.land r1 t4 in
  let r3 := Z.lxor t3 t5 in
  let r2 := Z.lxor v0 (Z.land (Z.lor v3 t5) (Z.lor r0 t3)) in
  let r1 := Z.lxor (Z.lxor t1 r3) (Z.lxor r2 (Z.lor v3 t0)) in
  (r0, r1, r2, r3).
(* sb2inv (4448-4468) *)
Definition serpent_sb2inv (x : quad) : quad :=
  let '(r0, r1, r2, r3) := x in
  let v0 := r0 in
  let v3 := r3 in
  let t0 := Z.lxor r1 v3 in
  let t1 := not_w t0 in
  let t2 := Z.lxor v0 r2 in
  let t3 := Z.lxor r2 t0 in
  let t4 := Z.land r1 t3 in
  let r0 := Z.lxor t2 t4 in
  let t5 := Z.lor v0 t1 in
  let t6 := Z.lxor v3 t5 in
  let t7 := Z.lor t2 t6 in
  let r3 := Z.lxor t0 t7 in
  let t8 := not_w t3 in
  let t9 := Z.lor r0 r3 in
  let r1 := Z.lxor t8 t9 in
  let r2 := Z.lxor (Z.land v3 t8) (Z.lxor t2 t9) in
  (r0, r1, r2, r3).
(* sb3 (4470-4490) *)
Definition serpent_sb3 (x : quad) : quad :=
  let '(r0, r1, r2, r3) := x in
  let v1 := r1 in
  let v3 := r3 in
  let t0 := Z.lxor r0 r1 in
  let t1 := Z.land r0 r2 in
  let t2 := Z.lor r0 r3 in
  let t3 := Z.lxor r2 r3 in
  let t4 := Z.land t0 t2 in
  let t5 := Z.lor t1 t4 in
  let r2 := Z.lxor t3 t5 in
  let t6 := Z.lxor r1 t2 in
  let t7 := Z.lxor t5 t6 in
  let t8 := Z.land t3 t7 in
  let r0 := Z.lxor t0 t8 in
  let t9 := Z.land r2 r0 in
  let r1 := Z.lxor t7 t9 in
  let r3 := Z.lxor (Z.lor v1 v3) (Z.lxor t3 t9) in
  (r0, r1, r2, r3).
(* sb3inv (4492-4510) *)
Definition serpent_sb3inv (x : quad) : quad :=
  let '(r0, r1, r2, r3) := x in
  let t0 := Z.lor r0 r1 in
  let t1 := Z.lxor r1 r2 in
  let t2 := Z.land r1 t1 in
  let t3 := Z.lxor r0 t2 in
  let t4 := Z.lxor r2 t3 in
  let t5 := Z.lor r3 t3 in
  let r0 := Z.lxor t1 t5 in
  let t6 := Z.lor t1 t5 in
  let t7 := Z.lxor r3 t6 in
  let r2 := Z.lxor t4 t7 in
  let t8 := Z.lxor t0 t7 in
  let t9 := Z.land r0 t8 in
  let r3 := Z.lxor t3 t9 in
  let r1 := Z.lxor r3 (Z.lxor r0 t8) in
  (r0, r1, r2, r3).
(* sb4 (4512-4530) *)
Definition serpent_sb4 (x : quad) : quad :=
  let '(r0, r1, r2, r3) := x in
  let v0 := r0 in
  let t0 := Z.lxor v0 r3 in
  let t1 := Z.land r3 t0 in
  let t2 := Z.lxor r2 t1 in
  let t3 := Z.lor r1 t2 in
  let r3 := Z.lxor t0 t3 in
  let t4 := not_w r1 in
  let t5 := Z.lor t0 t4 in
  let r0 := Z.lxor t2 t5 in
  let t6 := Z.land v0 r0 in
  let t7 := Z.lxor t0 t4 in
  let t8 := Z.land t3 t7 in
  let r2 := Z.lxor t6 t8 in
  let r1 := Z.lxor (Z.lxor v0 t2) (Z.land t7 r2) in
  (r0, r1, r2, r3).
(* sb4inv (4532-4550) *)
Definition serpent_sb4inv (x : quad) : quad :=
  let '(r0, r1, r2, r3) := x in
  let v3 := r3 in
  let t0 := Z.lor r2 v3 in
  let t1 := Z.land r0 t0 in
  let t2 := Z.lxor r1 t1 in
  let t3 := Z.land r0 t2 in
  let t4 := Z.lxor r2 t3 in
  let r1 := Z.lxor v3 t4 in
  let t5 := not_w r0 in
  let t6 := Z.land t4 r1 in
  let r3 := Z.lxor t2 t6 in
  let t7 := Z.lor r1 t5 in
  let t8 := Z.lxor v3 t7 in
  let r0 := Z.lxor r3 t8 in
  let r2 := Z.lxor (Z.land t2 t8) (Z.lxor r1 t5) in
  (r0, r1, r2, r3).
(* sb5 (4552-4571) *)
Definition serpent_sb5 (x : quad) : quad :=
  let '(r0, r1, r2, r3) := x in
  let v1 := r1 in
  let t0 := not_w r0 in
  let t1 := Z.lxor r0 v1 in
  let t2 := Z.lxor r0 r3 in
  let t3 := Z.lxor r2 t0 in
  let t4 := Z.lor t1 t2 in
  let r0 := Z.lxor t3 t4 in
  let t5 := Z.land r3 r0 in
  let t6 := Z.lxor t1 r0 in
  let r1 := Z.lxor t5 t6 in
  let t7 := Z.lor t0 r0 in
  let t8 := Z.lor t1 t5 in
  let t9 := Z.lxor t2 t7 in
  let r2 := Z.lxor t8 t9 in
  let r3 := Z.lxor (Z.lxor v1 t5) (Z.land r1 t9) in
  (r0, r1, r2, r3).
(* sb5inv (4573-4593) *)
Definition serpent_sb5inv (x : quad) : quad :=
  let '(r0, r1, r2, r3) := x in
  let v0 := r0 in
  let v1 := r1 in
  let v3 := r3 in
  let t0 := not_w r2 in
  let t1 := Z.land v1 t0 in
  let t2 := Z.lxor v3 t1 in
  let t3 := Z.land v0 t2 in
  let t4 := Z.lxor v1 t0 in
  let r3 := Z.lxor t3 t4 in
  let t5 := Z.lor v1 r3 in
  let t6 := Z.land v0 t5 in
  let r1 := Z.lxor t2 t6 in
  let t7 := Z.lor v0 v3 in
  let t8 := Z.lxor t0 t5 in
  let r0 := Z.lxor t7 t8 in
  let r2 := Z.lxor (Z.land v1 t7) (Z.lor t3 (Z.lxor v0 r2)) in
  (r0, r1, r2, r3).
(* sb6 (4595-4612) *)
Definition serpent_sb6 (x : quad) : quad :=
  let '(r0, r1, r2, r3) := x in
  let t0 := not_w r0 in
  let t1 := Z.lxor r0 r3 in
  let t2 := Z.lxor r1 t1 in
  let t3 := Z.lor t0 t1 in
  let t4 := Z.lxor r2 t3 in
  let r1 := Z.lxor r1 t4 in
  let t5 := Z.lor t1 r1 in
  let t6 := Z.lxor r3 t5 in
  let t7 := Z.land t4 t6 in
  let r2 := Z.lxor t2 t7 in
  let t8 := Z.lxor t4 t6 in
  let r0 := Z.lxor r2 t8 in
  let r3 := Z.lxor (not_w t4) (Z.land t2 t8) in
  (r0, r1, r2, r3).
(* sb6inv (4614-4633) *)
Definition serpent_sb6inv (x : quad) : quad :=
  let '(r0, r1, r2, r3) := x in
  let v1 := r1 in
  let v3 := r3 in
  let t0 := not_w r0 in
  let t1 := Z.lxor r0 v1 in
  let t2 := Z.lxor r2 t1 in
  let t3 := Z.lor r2 t0 in
  let t4 := Z.lxor v3 t3 in
  let r1 := Z.lxor t2 t4 in
  let t5 := Z.land t2 t4 in
  let t6 := Z.lxor t1 t5 in
  let t7 := Z.lor v1 t6 in
  let r3 := Z.lxor t4 t7 in
  let t8 := Z.lor v1 r3 in
  let r0 := Z.lxor t6 t8 in
  let r2 := Z.lxor (Z.land v3 t0) (Z.lxor t2 t8) in
  (r0, r1, r2, r3).
(* sb7 (4635-4653) *)
Definition serpent_sb7 (x : quad) : quad :=
  let '(r0, r1, r2, r3) := x in
  let t0 := Z.lxor r1 r2 in
  let t1 := Z.land r2 t0 in
  let t2 := Z.lxor r3 t1 in
  let t3 := Z.lxor r0 t2 in
  let t4 := Z.lor r3 t0 in
  let t5 := Z.land t3 t4 in
  let r1 := Z.lxor r1 t5 in
  let t6 := Z.lor t2 r1 in
  let t7 := Z.land r0 t3 in
  let r3 := Z.lxor t0 t7 in
  let t8 := Z.lxor t3 t6 in
  let t9 := Z.land r3 t8 in
  let r2 := Z.lxor t2 t9 in
  let r0 := Z.lxor (not_w t8) (Z.land r3 r2) in
  (r0, r1, r2, r3).
(* sb7inv (4655-4670) *)
Definition serpent_sb7inv (x : quad) : quad :=
  let '(r0, r1, r2, r3) := x in
  let v0 := r0 in
  let v3 := r3 in
  let t0 := Z.lor r2 (Z.land v0 r1) in
  let t1 := Z.land v3 (Z.lor v0 r1) in
  let r3 := Z.lxor t0 t1 in
  let t2 := not_w v3 in
  let t3 := Z.lxor r1 t1 in
  let t4 := Z.lor t3 (Z.lxor r3 t2) in
  let r1 := Z.lxor v0 t4 in
  let r0 := Z.lxor (Z.lxor r2 t3) (Z.lor v3 r1) in
  let r2 := Z.lxor (Z.lxor t0 r1) (Z.lxor r0 (Z.land v0 r3)) in
  (r0, r1, r2, r3).
(* xor4 (4672-4679) *)
Definition serpent_xor4 (sk : list Z) (i0 i1 i2 i3 : nat) (x : quad) : quad := xor_q x (rd sk i0, rd sk i1, rd sk i2, rd sk i3).
(* serpent_init (4681-4753): the words k[0..7] and then s; k[8..15] are s[0..7], so that one recurrence computes both *)
Definition serpent_phi : Z := 0x9e3779b9.
Fixpoint serpent_expand (n : nat) (i : Z) (k : list Z) : list Z :=
  match n with
  | O => k
  | S n =>
    let m := length k in
    let x := Z.lxor (Z.lxor (Z.lxor (Z.lxor (Z.lxor (rd k (m - 8)) (rd k (m - 5))) (rd k (m - 3))) (rd k (m - 1))) serpent_phi) i in
    serpent_expand n (i + 1) (k ++ [rotl32 x 11])
  end.
Definition serpent_sb (n : nat) : quad -> quad :=
  nth n [serpent_sb0; serpent_sb1; serpent_sb2; serpent_sb3; serpent_sb4; serpent_sb5; serpent_sb6; serpent_sb7] serpent_sb0.
Definition list4 (x : quad) : list Z := let '(a, b, c, d) := x in [a; b; c; d].
Definition serpent_boxes : list nat := [3; 2; 1; 0; 7; 6; 5; 4; 3; 2; 1; 0; 7; 6; 5; 4; 3; 2; 1; 0; 7; 6; 5; 4; 3; 2; 1; 0; 7; 6; 5; 4; 3]%nat.
Definition serpent_init (bits : Z) (key : list Z) : outcome (list Z) :=
  if negb ((bits =? 128) || (bits =? 192) || (bits =? 256)) then Abort
  else
    let n := Z.to_nat (bits / 32) in
    let k := map (fun i => read32le (skipn (4 * i) key)) (seq 0 n) in
    let k := if (n <? 8)%nat then k ++ [1] else k in
    let k := k ++ repeat 0 (8 - length k) in
    let s := skipn 8 (serpent_expand 132 0 k) in
    Ok (flat_map (fun p => list4 (serpent_sb (snd p) (get4 s (4 * fst p)))) (combine (seq 0 33) serpent_boxes)).
(* serpent_encrypt (4755-4871) *)
Definition serpent_encrypt_steps (sk : list Z) : list (quad -> quad) :=
  [serpent_xor4 sk 0 1 2 3; serpent_sb0; serpent_linear; serpent_xor4 sk 4 5 6 7; serpent_sb1; serpent_linear;
    serpent_xor4 sk 8 9 10 11; serpent_sb2; serpent_linear; serpent_xor4 sk 12 13 14 15; serpent_sb3; serpent_linear;
    serpent_xor4 sk 16 17 18 19; serpent_sb4; serpent_linear; serpent_xor4 sk 20 21 22 23; serpent_sb5; serpent_linear;
    serpent_xor4 sk 24 25 26 27; serpent_sb6; serpent_linear; serpent_xor4 sk 28 29 30 31; serpent_sb7; serpent_linear;
    serpent_xor4 sk 32 33 34 35; serpent_sb0; serpent_linear; serpent_xor4 sk 36 37 38 39; serpent_sb1; serpent_linear;
    serpent_xor4 sk 40 41 42 43; serpent_sb2; serpent_linear; serpent_xor4 sk 44 45 46 47; serpent_sb3; serpent_linear;
    serpent_xor4 sk 48 49 50 51; serpent_sb4; serpent_linear; serpent_xor4 sk 52 53 54 55; serpent_sb5; serpent_linear;
    serpent_xor4 sk 56 57 58 59; serpent_sb6; serpent_linear; serpent_xor4 sk 60 61 62 63; serpent_sb7; serpent_linear;
    serpent_xor4 sk 64 65 66 67; serpent_sb0; serpent_linear; serpent_xor4 sk 68 69 70 71; serpent_sb1; serpent_linear;
    serpent_xor4 sk 72 73 74 75; serpent_sb2; serpent_linear; serpent_xor4 sk 76 77 78 79; serpent_sb3; serpent_linear;
    serpent_xor4 sk 80 81 82 83; serpent_sb4; serpent_linear; serpent_xor4 sk 84 85 86 87; serpent_sb5; serpent_linear;
    serpent_xor4 sk 88 89 90 91; serpent_sb6; serpent_linear; serpent_xor4 sk 92 93 94 95; serpent_sb7; serpent_linear;
    serpent_xor4 sk 96 97 98 99; serpent_sb0; serpent_linear; serpent_xor4 sk 100 101 102 103; serpent_sb1; serpent_linear;
    serpent_xor4 sk 104 105 106 107; serpent_sb2; serpent_linear; serpent_xor4 sk 108 109 110 111; serpent_sb3; serpent_linear;
    serpent_xor4 sk 112 113 114 115; serpent_sb4; serpent_linear; serpent_xor4 sk 116 117 118 119; serpent_sb5; serpent_linear;
    serpent_xor4 sk 120 121 122 123; serpent_sb6; serpent_linear; serpent_xor4 sk 124 125 126 127; serpent_sb7; serpent_xor4 sk 128 129 130 131].
Definition serpent_encrypt (sk src : list Z) : list Z := st4 write32le (pipe (serpent_encrypt_steps sk) (ld4 read32le src)).
(* serpent_decrypt (4873-4989) *)
Definition serpent_decrypt_steps (sk : list Z) : list (quad -> quad) :=
  [serpent_xor4 sk 128 129 130 131; serpent_sb7inv; serpent_xor4 sk 124 125 126 127; serpent_linearinv; serpent_sb6inv; serpent_xor4 sk 120 121 122 123;
    serpent_linearinv; serpent_sb5inv; serpent_xor4 sk 116 117 118 119; serpent_linearinv; serpent_sb4inv; serpent_xor4 sk 112 113 114 115;
    serpent_linearinv; serpent_sb3inv; serpent_xor4 sk 108 109 110 111; serpent_linearinv; serpent_sb2inv; serpent_xor4 sk 104 105 106 107;
    serpent_linearinv; serpent_sb1inv; serpent_xor4 sk 100 101 102 103; serpent_linearinv; serpent_sb0inv; serpent_xor4 sk 96 97 98 99;
    serpent_linearinv; serpent_sb7inv; serpent_xor4 sk 92 93 94 95; serpent_linearinv; serpent_sb6inv; serpent_xor4 sk 88 89 90 91;
    serpent_linearinv; serpent_sb5inv; serpent_xor4 sk 84 85 86 87; serpent_linearinv; serpent_sb4inv; serpent_xor4 sk 80 81 82 83;
    serpent_linearinv; serpent_sb3inv; serpent_xor4 sk 76 77 78 79; serpent_linearinv; serpent_sb2inv; serpent_xor4 sk 72 73 74 75;
    serpent_linearinv; serpent_sb1inv; serpent_xor4 sk 68 69 70 71; serpent_linearinv; serpent_sb0inv; serpent_xor4 sk 64 65 66 67;
    serpent_linearinv; serpent_sb7inv; serpent_xor4 sk 60 61 62 63; serpent_linearinv; serpent_sb6inv; serpent_xor4 sk 56 57 58 59;
    serpent_linearinv; serpent_sb5inv; serpent_xor4 sk 52 53 54 55; serpent_linearinv; serpent_sb4inv; serpent_xor4 sk 48 49 50 51;
    serpent_linearinv; serpent_sb3inv; serpent_xor4 sk 44 45 46 47; serpent_linearinv; serpent_sb2inv; serpent_xor4 sk 40 41 42 43;
    serpent_linearinv; serpent_sb1inv; serpent_xor4 sk 36 37 38 39; serpent_linearinv; serpent_sb0inv; serpent_xor4 sk 32 33 34 35;
    serpent_linearinv; serpent_sb7inv; serpent_xor4 sk 28 29 30 31; serpent_linearinv; serpent_sb6inv; serpent_xor4 sk 24 25 26 27;
    serpent_linearinv; serpent_sb5inv; serpent_xor4 sk 20 21 22 23; serpent_linearinv; serpent_sb4inv; serpent_xor4 sk 16 17 18 19;
    serpent_linearinv; serpent_sb3inv; serpent_xor4 sk 12 13 14 15; serpent_linearinv; serpent_sb2inv; serpent_xor4 sk 8 9 10 11;
    serpent_linearinv; serpent_sb1inv; serpent_xor4 sk 4 5 6 7; serpent_linearinv; serpent_sb0inv; serpent_xor4 sk 0 1 2 3].
Definition serpent_decrypt (sk src : list Z) : list Z := st4 write32le (pipe (serpent_decrypt_steps sk) (ld4 read32le src)).

(* ---- Twofish ---- *)
(* cipher.c:5029-5034 *)
Definition twofish_RS : list (list Z) :=
  [[0x01; 0xa4; 0x55; 0x87; 0x5a; 0x58; 0xdb; 0x9e];
   [0xa4; 0x56; 0x82; 0xf3; 0x1e; 0xc6; 0x68; 0xe5];
   [0x02; 0xa1; 0xfc; 0xc1; 0x47; 0xae; 0x3d; 0x19];
   [0xa4; 0x55; 0x87; 0x5a; 0x58; 0xdb; 0x9e; 0x03]].
(* cipher.c:5036-5069 *)
Definition twofish_S0 : list Z :=
  [0xa9; 0x67; 0xb3; 0xe8; 0x04; 0xfd; 0xa3; 0x76; 0x9a; 0x92; 0x80; 0x78; 0xe4; 0xdd; 0xd1; 0x38;
   0x0d; 0xc6; 0x35; 0x98; 0x18; 0xf7; 0xec; 0x6c; 0x43; 0x75; 0x37; 0x26; 0xfa; 0x13; 0x94; 0x48;
   0xf2; 0xd0; 0x8b; 0x30; 0x84; 0x54; 0xdf; 0x23; 0x19; 0x5b; 0x3d; 0x59; 0xf3; 0xae; 0xa2; 0x82;
   0x63; 0x01; 0x83; 0x2e; 0xd9; 0x51; 0x9b; 0x7c; 0xa6; 0xeb; 0xa5; 0xbe; 0x16; 0x0c; 0xe3; 0x61;
   0xc0; 0x8c; 0x3a; 0xf5; 0x73; 0x2c; 0x25; 0x0b; 0xbb; 0x4e; 0x89; 0x6b; 0x53; 0x6a; 0xb4; 0xf1;
   0xe1; 0xe6; 0xbd; 0x45; 0xe2; 0xf4; 0xb6; 0x66; 0xcc; 0x95; 0x03; 0x56; 0xd4; 0x1c; 0x1e; 0xd7;
   0xfb; 0xc3; 0x8e; 0xb5; 0xe9; 0xcf; 0xbf; 0xba; 0xea; 0x77; 0x39; 0xaf; 0x33; 0xc9; 0x62; 0x71;
   0x81; 0x79; 0x09; 0xad; 0x24; 0xcd; 0xf9; 0xd8; 0xe5; 0xc5; 0xb9; 0x4d; 0x44; 0x08; 0x86; 0xe7;
   0xa1; 0x1d; 0xaa; 0xed; 0x06; 0x70; 0xb2; 0xd2; 0x41; 0x7b; 0xa0; 0x11; 0x31; 0xc2; 0x27; 0x90;
   0x20; 0xf6; 0x60; 0xff; 0x96; 0x5c; 0xb1; 0xab; 0x9e; 0x9c; 0x52; 0x1b; 0x5f; 0x93; 0x0a; 0xef;
   0x91; 0x85; 0x49; 0xee; 0x2d; 0x4f; 0x8f; 0x3b; 0x47; 0x87; 0x6d; 0x46; 0xd6; 0x3e; 0x69; 0x64;
   0x2a; 0xce; 0xcb; 0x2f; 0xfc; 0x97; 0x05; 0x7a; 0xac; 0x7f; 0xd5; 0x1a; 0x4b; 0x0e; 0xa7; 0x5a;
   0x28; 0x14; 0x3f; 0x29; 0x88; 0x3c; 0x4c; 0x02; 0xb8; 0xda; 0xb0; 0x17; 0x55; 0x1f; 0x8a; 0x7d;
   0x57; 0xc7; 0x8d; 0x74; 0xb7; 0xc4; 0x9f; 0x72; 0x7e; 0x15; 0x22; 0x12; 0x58; 0x07; 0x99; 0x34;
   0x6e; 0x50; 0xde; 0x68; 0x65; 0xbc; 0xdb; 0xf8; 0xc8; 0xa8; 0x2b; 0x40; 0xdc; 0xfe; 0x32; 0xa4;
   0xca; 0x10; 0x21; 0xf0; 0xd3; 0x5d; 0x0f; 0x00; 0x6f; 0x9d; 0x36; 0x42; 0x4a; 0x5e; 0xc1; 0xe0].
(* cipher.c:5071-5104 *)
Definition twofish_S1 : list Z :=
  [0x75; 0xf3; 0xc6; 0xf4; 0xdb; 0x7b; 0xfb; 0xc8; 0x4a; 0xd3; 0xe6; 0x6b; 0x45; 0x7d; 0xe8; 0x4b;
   0xd6; 0x32; 0xd8; 0xfd; 0x37; 0x71; 0xf1; 0xe1; 0x30; 0x0f; 0xf8; 0x1b; 0x87; 0xfa; 0x06; 0x3f;
   0x5e; 0xba; 0xae; 0x5b; 0x8a; 0x00; 0xbc; 0x9d; 0x6d; 0xc1; 0xb1; 0x0e; 0x80; 0x5d; 0xd2; 0xd5;
   0xa0; 0x84; 0x07; 0x14; 0xb5; 0x90; 0x2c; 0xa3; 0xb2; 0x73; 0x4c; 0x54; 0x92; 0x74; 0x36; 0x51;
   0x38; 0xb0; 0xbd; 0x5a; 0xfc; 0x60; 0x62; 0x96; 0x6c; 0x42; 0xf7; 0x10; 0x7c; 0x28; 0x27; 0x8c;
   0x13; 0x95; 0x9c; 0xc7; 0x24; 0x46; 0x3b; 0x70; 0xca; 0xe3; 0x85; 0xcb; 0x11; 0xd0; 0x93; 0xb8;
   0xa6; 0x83; 0x20; 0xff; 0x9f; 0x77; 0xc3; 0xcc; 0x03; 0x6f; 0x08; 0xbf; 0x40; 0xe7; 0x2b; 0xe2;
   0x79; 0x0c; 0xaa; 0x82; 0x41; 0x3a; 0xea; 0xb9; 0xe4; 0x9a; 0xa4; 0x97; 0x7e; 0xda; 0x7a; 0x17;
   0x66; 0x94; 0xa1; 0x1d; 0x3d; 0xf0; 0xde; 0xb3; 0x0b; 0x72; 0xa7; 0x1c; 0xef; 0xd1; 0x53; 0x3e;
   0x8f; 0x33; 0x26; 0x5f; 0xec; 0x76; 0x2a; 0x49; 0x81; 0x88; 0xee; 0x21; 0xc4; 0x1a; 0xeb; 0xd9;
   0xc5; 0x39; 0x99; 0xcd; 0xad; 0x31; 0x8b; 0x01; 0x18; 0x23; 0xdd; 0x1f; 0x4e; 0x2d; 0xf9; 0x48;
   0x4f; 0xf2; 0x65; 0x8e; 0x78; 0x5c; 0x58; 0x19; 0x8d; 0xe5; 0x98; 0x57; 0x67; 0x7f; 0x05; 0x64;
   0xaf; 0x63; 0xb6; 0xfe; 0xf5; 0xb7; 0x3c; 0xa5; 0xce; 0xe9; 0x68; 0x44; 0xe0; 0x4d; 0x43; 0x69;
   0x29; 0x2e; 0xac; 0x15; 0x59; 0xa8; 0x0a; 0x9e; 0x6e; 0x47; 0xdf; 0x34; 0x35; 0x6a; 0xcf; 0xdc;
   0x22; 0xc9; 0xc0; 0x9b; 0x89; 0xd4; 0xed; 0xab; 0x12; 0xa2; 0x0d; 0x52; 0xbb; 0x02; 0x2f; 0xa9;
   0xd7; 0x61; 0x1e; 0xb4; 0x50; 0x04; 0xf6; 0xc2; 0x16; 0x25; 0x86; 0x56; 0x55; 0x09; 0xbe; 0x91].
(* gf_mul (5106-5128) *)
Definition gf_mul (a b p : Z) : Z :=
  let step s (_ : nat) :=
    let '(res, a, B1) := s in
    (Z.lxor res (if Z.land a 1 =? 0 then 0 else B1), shr a 1, Z.lxor (if shr B1 7 =? 0 then 0 else p) (shl32 B1 1)) in
  let '(res, a, B1) := fold_left step (seq 0 7) (0, a, b) in
  w8 (Z.lxor res (if Z.land a 1 =? 0 then 0 else B1)).
(* mds_mul (5130-5151), col below 4 *)
Definition mds_mul (v : Z) (col : nat) : Z :=
  let x := v in
  let y := gf_mul v 0x5b 0x169 in
  let z := gf_mul v 0xef 0x169 in
  let cat a b c d := Z.lor (Z.lor (Z.lor a (shl32 b 8)) (shl32 c 16)) (shl32 d 24) in
  match col with
  | 0%nat => cat x y z z
  | 1%nat => cat z z y x
  | 2%nat => cat y z x z
  | _ => cat y x z y
  end.
Definition tS0 (x : Z) : Z := rd twofish_S0 (Z.to_nat x).
Definition tS1 (x : Z) : Z := rd twofish_S1 (Z.to_nat x).
(* h_gen (5153-5200), k in 2..4; the four bytes of v are equal at each call *)
Definition h_gen (v : Z) (key : list Z) (off k : nat) : Z :=
  let g n c := rd key (4 * (n + off) + c) in
  let y := (v, v, v, v) in
  let y := if (k =? 4)%nat then let '(y0, y1, y2, y3) := y in
      (Z.lxor (tS1 y0) (g 6%nat 0%nat), Z.lxor (tS0 y1) (g 6%nat 1%nat), Z.lxor (tS0 y2) (g 6%nat 2%nat), Z.lxor (tS1 y3) (g 6%nat 3%nat)) else y in
  let y := if (3 <=? k)%nat then let '(y0, y1, y2, y3) := y in
      (Z.lxor (tS1 y0) (g 4%nat 0%nat), Z.lxor (tS1 y1) (g 4%nat 1%nat), Z.lxor (tS0 y2) (g 4%nat 2%nat), Z.lxor (tS0 y3) (g 4%nat 3%nat)) else y in
  let '(y0, y1, y2, y3) := y in
  let y0 := tS1 (Z.lxor (tS0 (Z.lxor (tS0 y0) (g 2%nat 0%nat))) (g 0%nat 0%nat)) in
  let y1 := tS0 (Z.lxor (tS0 (Z.lxor (tS1 y1) (g 2%nat 1%nat))) (g 0%nat 1%nat)) in
  let y2 := tS1 (Z.lxor (tS1 (Z.lxor (tS0 y2) (g 2%nat 2%nat))) (g 0%nat 2%nat)) in
  let y3 := tS0 (Z.lxor (tS1 (Z.lxor (tS1 y3) (g 2%nat 3%nat))) (g 0%nat 3%nat)) in
  Z.lxor (Z.lxor (Z.lxor (mds_mul y0 0) (mds_mul y1 1)) (mds_mul y2 2)) (mds_mul y3 3).
Record twofish_t := MkTwofish { tf_S : list (list Z); tf_k : list Z }.
(* twofish_init (5211-5286): the words W, the subkeys and the boxes *)
Definition twofish_W (key : list Z) (k : nat) : list Z :=
  flat_map (fun i => map (fun j => fold_left (fun w v => Z.lxor w (gf_mul (rd key (8 * i + v)) (rd (nth j twofish_RS []) v) 0x14d)) (seq 0 8) 0) (seq 0 4)) (seq 0 k).
Definition twofish_subkey (key : list Z) (k : nat) (i : Z) : list Z :=
  let A := h_gen (2 * i) key 0 k in
  let B := rotl32 (h_gen (2 * i + 1) key 1 k) 8 in
  [add32 A B; rotl32 (add32 (mul32 2 B) A) 9].
Definition twofish_boxes (k : nat) : list (list (Z -> Z)) :=
  match k with
  | 2%nat => [[tS0; tS0; tS1]; [tS1; tS0; tS0]; [tS0; tS1; tS1]; [tS1; tS1; tS0]]
  | 3%nat => [[tS1; tS0; tS0; tS1]; [tS1; tS1; tS0; tS0]; [tS0; tS0; tS1; tS1]; [tS0; tS1; tS1; tS0]]
  | _ => [[tS1; tS1; tS0; tS0; tS1]; [tS0; tS1; tS1; tS0; tS0]; [tS0; tS0; tS0; tS1; tS1]; [tS1; tS0; tS1; tS1; tS0]]
  end.
(* S_n[... S_2[S_1[i] ^ W[c]] ^ W[4 + c] ...], the innermost box first *)
Fixpoint twofish_nest (W : list Z) (c : nat) (boxes : list (Z -> Z)) (x : Z) : Z :=
  match boxes with
  | [] => x
  | [s] => s x
  | s :: boxes => twofish_nest W (c + 4) boxes (Z.lxor (s x) (rd W c))
  end.
Definition twofish_init (bits : Z) (key : list Z) : outcome twofish_t :=
  if negb ((bits =? 128) || (bits =? 192) || (bits =? 256)) then Abort
  else
    let k := Z.to_nat (shr bits 6) in
    let W := twofish_W key k in
    Ok (MkTwofish
      (map (fun c => map (fun i => mds_mul (twofish_nest W c (nth c (twofish_boxes k) []) i) c) (zseq 0 256)) (seq 0 4))
      (flat_map (twofish_subkey key k) (zseq 0 20))).
(* the words t1 and t2 of a round (5313-5323) *)
Definition tfZ (c : twofish_t) (n : nat) (b : Z) : Z := rd (nth n (tf_S c) []) (Z.to_nat b).
Definition tf_t2 (c : twofish_t) (x : Z) : Z := Z.lxor (Z.lxor (Z.lxor (tfZ c 1 (byte_of x 0)) (tfZ c 2 (byte_of x 8))) (tfZ c 3 (byte_of x 16))) (tfZ c 0 (byte_of x 24)).
Definition tf_t1 (c : twofish_t) (x : Z) : Z := Z.lxor (Z.lxor (Z.lxor (tfZ c 0 (byte_of x 0)) (tfZ c 1 (byte_of x 8))) (tfZ c 2 (byte_of x 16))) (tfZ c 3 (byte_of x 24)).
(* twofish_encrypt (5288-5354) *)
Definition tf_round (c : twofish_t) (x : quad) (i : nat) : quad :=
  let '(ia, ib, ic, id) := x in
  let k n := rd (tf_k c) (8 + i * 4 + n) in
  let t2 := tf_t2 c ib in
  let t1 := add32 (tf_t1 c ia) t2 in
  let ic := rotr32 (Z.lxor ic (add32 t1 (k 0%nat))) 1 in
  let id := Z.lxor (rotl32 id 1) (add32 (add32 t2 t1) (k 1%nat)) in
  let t2 := tf_t2 c id in
  let t1 := add32 (tf_t1 c ic) t2 in
  let ia := rotr32 (Z.lxor ia (add32 t1 (k 2%nat))) 1 in
  let ib := Z.lxor (rotl32 ib 1) (add32 (add32 t2 t1) (k 3%nat)) in
  (ia, ib, ic, id).
Definition twofish_encipher (c : twofish_t) (x : quad) : quad :=
  let x := xor_q x (get4 (tf_k c) 0) in
  let '(ia, ib, ic, id) := fold_left (tf_round c) (seq 0 8) x in
  xor_q (ic, id, ia, ib) (get4 (tf_k c) 4).
Definition twofish_encrypt (c : twofish_t) (src : list Z) : list Z := st4 write32le (twofish_encipher c (ld4 read32le src)).
(* twofish_decrypt (5356-5422) *)
Definition tf_unround (c : twofish_t) (x : quad) (i : nat) : quad :=
  let '(ia, ib, ic, id) := x in
  let k n := rd (tf_k c) (4 + i * 4 + n) in
  let t2 := tf_t2 c id in
  let t1 := add32 (tf_t1 c ic) t2 in
  let ia := Z.lxor (rotl32 ia 1) (add32 t1 (k 2%nat)) in
  let ib := rotr32 (Z.lxor ib (add32 (add32 t2 t1) (k 3%nat))) 1 in
  let t2 := tf_t2 c ib in
  let t1 := add32 (tf_t1 c ia) t2 in
  let ic := Z.lxor (rotl32 ic 1) (add32 t1 (k 0%nat)) in
  let id := rotr32 (Z.lxor id (add32 (add32 t2 t1) (k 1%nat))) 1 in
  (ia, ib, ic, id).
Definition twofish_decipher (c : twofish_t) (x : quad) : quad :=
  let '(ta, tb, tc, td) := x in
  let x := xor_q (tc, td, ta, tb) (rd (tf_k c) 6, rd (tf_k c) 7, rd (tf_k c) 4, rd (tf_k c) 5) in
  let x := fold_left (tf_unround c) [8; 7; 6; 5; 4; 3; 2; 1]%nat x in
  xor_q x (get4 (tf_k c) 0).
Definition twofish_decrypt (c : twofish_t) (src : list Z) : list Z := st4 write32le (twofish_decipher c (ld4 read32le src)).
