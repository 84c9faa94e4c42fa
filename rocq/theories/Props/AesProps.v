(* The AES part of C26, and C45 for CTR-DRBG over AES *)
From Verif.Base Require Import Prelude.
From Verif.Model Require Import Encoding Bio Util Hash Aes Drbg.
From Verif.Spec Require Import AesSpec DrbgSpec.
From Verif.Proof Require Import BioProof AesProof AesInv AesKey FinInv CtrDrbgProof.
From Verif.Props Require Import DrbgProps.

Definition aes_bits (bits : Z) (nk : nat) : Prop := (bits = 128 /\ nk = 4%nat) \/ (bits = 192 /\ nk = 6%nat) \/ (bits = 256 /\ nk = 8%nat).
Lemma aes_bits_in bits nk : aes_bits bits nk -> In (bits, nk) [(128, 4%nat); (192, 6%nat); (256, 8%nat)].
Proof. intros [[-> ->]|[[-> ->]|[-> ->]]]; cbn; auto. Qed.

(* C26, AES: the table-driven code is FIPS-197's Cipher and InvCipher under FIPS-197's key expansion *)
Theorem C26_aes_standard bits nk key : aes_bits bits nk -> bytes key -> length key = (4 * nk)%nat ->
  exists c, aes_init bits key = Some c /\ forall src, bytes src -> length src = 16%nat ->
    aes_encrypt c src = fips_cipher (nr_of nk) (key_expansion nk (nr_of nk) key) src /\
    aes_decrypt c src = fips_inv_cipher (nr_of nk) (key_expansion nk (nr_of nk) key) src.
Proof.
  intros Hb Hk Lk. apply aes_bits_in in Hb.
  destruct (aes_init bits key) as [c|] eqn:E.
  - exists c. split; [reflexivity|]. intros src Hs Ls. destruct (aes_spec bits nk key src Hb Hk Lk Hs Ls) as (c' & E' & A & B & _).
    assert (c' = c) as -> by congruence. auto.
  - exfalso. destruct (aes_spec bits nk key (repeat 0 16) Hb Hk Lk) as (c' & E' & _); [apply bytes_repeat; unfold byte; lia|reflexivity|congruence].
Qed.
(* FIPS-197 appendix C.3 *)
Example C26_aes_standard_ex :
  option_map (fun c => aes_encrypt c (map (fun i => 17 * i) (zseq 0 16))) (aes_init 256 (zseq 0 32)) =
    Some [0x8e; 0xa2; 0xb7; 0xca; 0x51; 0x67; 0x45; 0xbf; 0xea; 0xfc; 0x49; 0x90; 0x4b; 0x49; 0x60; 0x89] /\
  fips_cipher 14 (key_expansion 8 14 (zseq 0 32)) (map (fun i => 17 * i) (zseq 0 16)) =
    [0x8e; 0xa2; 0xb7; 0xca; 0x51; 0x67; 0x45; 0xbf; 0xea; 0xfc; 0x49; 0x90; 0x4b; 0x49; 0x60; 0x89].
Proof. split; vm_compute; reflexivity. Qed.

(* C26, AES: decryption and encryption undo each other, for every key of the three sizes and every block *)
Theorem C26_aes bits nk key : aes_bits bits nk -> bytes key -> length key = (4 * nk)%nat ->
  exists c, aes_init bits key = Some c /\ forall src, bytes src -> length src = 16%nat ->
    aes_decrypt c (aes_encrypt c src) = src /\ aes_encrypt c (aes_decrypt c src) = src.
Proof.
  intros Hb Hk Lk. destruct (C26_aes_standard bits nk key Hb Hk Lk) as (c & E & S). exists c. split; [exact E|].
  apply aes_bits_in in Hb.
  assert (L : forall x, bytes x -> length x = 16%nat -> bytes (aes_encrypt c x) /\ length (aes_encrypt c x) = 16%nat).
  { intros x Hx Lx. destruct (S x Hx Lx) as [-> _]. apply (fips_cipher_ok bits nk key x); auto. }
  assert (I : forall x, bytes x -> length x = 16%nat -> aes_decrypt c (aes_encrypt c x) = x).
  { intros x Hx Lx. destruct (L x Hx Lx) as [L1 L2]. destruct (S _ L1 L2) as [_ ->]. destruct (S x Hx Lx) as [-> _].
    destruct (aes_spec bits nk key x Hb Hk Lk Hx Lx) as (_ & _ & _ & _ & R). exact R. }
  intros src Hs Ls. split; [apply I; auto|]. apply (finite_right_inverse 16 (aes_encrypt c) (aes_decrypt c)); auto.
Qed.
Example C26_aes_ex : option_map (fun c => aes_decrypt c [0xdd; 0xa9; 0x7c; 0xa4; 0x86; 0x4c; 0xdf; 0xe0; 0x6e; 0xaf; 0x70; 0xa0; 0xec; 0x0d; 0x71; 0x91]) (aes_init 192 (zseq 0 24)) =
  Some (map (fun i => 17 * i) (zseq 0 16)).
Proof. vm_compute. reflexivity. Qed.
(* other key sizes abort *)
Theorem C26_aes_sizes bits key : aes_init bits key <> None <-> exists nk, aes_bits bits nk.
Proof.
  unfold aes_init, aes_init_encrypt. split.
  - intros H. destruct (bits =? 128) eqn:E1; [exists 4%nat; left; lia|]. destruct (bits =? 192) eqn:E2; [exists 6%nat; right; left; lia|].
    destruct (bits =? 256) eqn:E3; [exists 8%nat; right; right; lia|]. congruence.
  - intros [nk [[-> _]|[[-> _]|[-> _]]]]; discriminate.
Qed.

(* the block operation CTR-DRBG is built on (drbg.c, aes_init_encrypt then aes_encrypt) *)
Definition aes_block (bits : Z) (K b : list Z) : list Z :=
  match aes_init_encrypt bits K with Some (r, k) => aes_encrypt (MkAes r k []) b | None => repeat 0 16 end.
Lemma aes_block_ok bits K b : length (aes_block bits K b) = 16%nat /\ bytes (aes_block bits K b).
Proof.
  unfold aes_block. destruct (aes_init_encrypt bits K) as [[r k]|]; [|split; [reflexivity|apply bytes_repeat; unfold byte; lia]].
  unfold aes_encrypt. destruct (enc_loop _ _ _ _) as [[[[t0 t1] t2] t3] o]. split; [reflexivity|]. repeat (apply bytes_app; split); apply write32be_bytes.
Qed.
(* C45: CTR-DRBG with AES-128, -192 or -256 follows SP 800-90A *)
Theorem C45_ctr_drbg_aes bits df x y ops fuel : bits = 128 \/ bits = 192 \/ bits = 256 ->
  let ks := Z.to_nat (bits / 8) in let E := aes_block bits in
  seed_ok ks df x y -> Forall (ctr_op_ok ks fuel df) ops ->
  exists d, ctr_drbg_init E bits df x y = Ok d /\
  run_code (fun d s => ctr_drbg_reseed E d (fst s) (snd s)) (ctr_drbg_generate E fuel) d ops =
    Some (Ok (run (fun st s => CTR_Reseed E ks df st (fst s) (snd s)) (CTR_Generate E ks df) (CTR_Instantiate E ks df x y) ops)).
Proof. intros Hb. apply C45_ctr_drbg; auto. apply aes_block_ok. Qed.
(* a NIST vector from test/data/ctr_drbg_vectors.h *)
Example C45_ctr_drbg_aes_ex :
  bind (ctr_drbg_init (aes_block 256) 256 true [23; 75; 70; 37; 0; 81; 169; 227; 216; 12; 86; 174; 113; 99; 218; 254; 126; 84; 72; 26; 86; 202; 253; 59; 134; 37; 249; 155; 187; 41; 196; 66; 152; 255; 217; 156; 70; 110; 14; 148; 164; 93; 167; 224; 232; 45; 188; 107] [112; 149; 38; 142; 153; 147; 139; 62; 4; 39; 52; 185; 23; 108; 154; 160; 81; 240; 10; 95; 141; 42; 137; 173; 162; 20; 184; 155; 238; 241; 142; 191])
    (fun d => match run_code (fun d s => ctr_drbg_reseed (aes_block 256) d (fst s) (snd s)) (ctr_drbg_generate (aes_block 256) 64) d
       [Reseed ([232; 139; 225; 150; 124; 85; 3; 246; 93; 35; 134; 123; 188; 137; 27; 214; 121; 219; 3; 180; 135; 134; 99; 246; 200; 119; 89; 45; 242; 95; 13; 154], [205; 246; 173; 84; 158; 69; 182; 170; 92; 214; 125; 2; 73; 49; 195; 60; 209; 51; 213; 45; 90; 229; 0; 195; 1; 80; 32; 190; 179; 13; 160; 99]); Generate 64 [199; 34; 142; 144; 198; 47; 137; 106; 9; 225; 22; 132; 83; 1; 2; 249; 38; 236; 144; 163; 37; 95; 108; 33; 184; 87; 136; 60; 117; 128; 1; 67]; Generate 64 [118; 169; 79; 34; 65; 120; 254; 76; 191; 158; 43; 138; 204; 83; 201; 220; 62; 80; 187; 97; 58; 172; 137; 54; 96; 20; 83; 205; 163; 41; 59; 23]]
     with Some (Ok [_; o]) => Ok o | _ => Fail end) =
  Ok [26; 109; 141; 189; 100; 32; 118; 209; 57; 22; 229; 226; 48; 56; 182; 11; 38; 6; 31; 19; 221; 78; 0; 98; 119; 224; 38; 134; 152; 255; 178; 200; 126; 69; 59; 174; 18; 81; 99; 26; 201; 12; 112; 26; 152; 73; 217; 51; 153; 94; 139; 2; 33; 254; 154; 202; 25; 133; 197; 70; 194; 7; 144; 39].
Proof. vm_compute. reflexivity. Qed.

(* the axioms of every theorem above, listed at once *)
Definition AesProps_all := (@C26_aes_standard, @C26_aes, @C26_aes_sizes, @C45_ctr_drbg_aes).
Print Assumptions AesProps_all.
