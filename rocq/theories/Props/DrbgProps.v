(* C45, C46: the DRBGs *)
From Verif.Base Require Import Prelude.
From Verif.Model Require Import Encoding Bio Hash Drbg.
From Verif.Spec Require Import BlockSpec HashSpec KdfSpec DrbgSpec.
From Verif.Proof Require Import DrbgProof CtrDrbgProof.

#[local] Opaque hash_init hash_update hash_final hmac_init hmac_update hmac_final hash_value rfc2104.

(* call the code once per operation; the outputs of the Generate calls, in order *)
Fixpoint run_code {A St} (reseed : St -> A -> outcome St) (gen : St -> nat -> list Z -> option (outcome (list Z * St))) (st : St) (ops : list (op A)) : option (outcome (list (list Z))) :=
  match ops with
  | [] => Some (Ok [])
  | Reseed s :: ops =>
    match reseed st s with Ok st => run_code reseed gen st ops | Fail => Some Fail | Abort => Some Abort end
  | Generate n a :: ops =>
    match gen st n a with
    | Some (Ok (o, st)) => match run_code reseed gen st ops with Some (Ok r) => Some (Ok (o :: r)) | x => x end
    | Some Fail => Some Fail
    | Some Abort => Some Abort
    | None => None
    end
  end.
Lemma run_sim {A St Sp} (R : nat -> Sp -> St -> Prop) (ok : op A -> Prop) reseed gen reseed' gen' :
  (forall n sp st s, R (S n) sp st -> ok (Reseed s) -> exists st', reseed st s = Ok st' /\ R n (reseed' sp s) st') ->
  (forall n sp st len add, R (S n) sp st -> ok (Generate len add) -> let '(o, sp') := gen' sp len add in exists st', gen st len add = Some (Ok (o, st')) /\ R n sp' st') ->
  forall ops sp st, Forall ok ops -> R (length ops) sp st -> run_code reseed gen st ops = Some (Ok (run reseed' gen' sp ops)).
Proof.
  intros H1 H2. induction ops as [|[s|len add] ops IH]; intros sp st Hok HR; cbn [run_code run]; [reflexivity| |]; inversion Hok; subst; cbn [length] in HR.
  - destruct (H1 _ sp st s HR) as (st' & -> & HR'); [assumption|]. apply IH; auto.
  - specialize (H2 _ sp st len add HR ltac:(assumption)). destruct (gen' sp len add) as [o sp']. destruct H2 as (st' & -> & HR'). rewrite (IH sp' st') by auto. reflexivity.
Qed.

(* what a caller may pass: byte strings shorter than 2^64 *)
Definition op_ok (fuel : nat) (o : op (list Z)) : Prop :=
  match o with Reseed s => small s | Generate len add => small add /\ (len <= fuel)%nat end.

(* C45: HMAC-DRBG with any hash, any seed and any sequence of reseeds and requests produces the bytes of SP 800-90A's HMAC_DRBG *)
Theorem C45_hmac_drbg id seed ops fuel : small seed -> Forall (op_ok fuel) ops ->
  exists d, hmac_drbg_init id seed = Ok d /\
  run_code hmac_drbg_reseed (hmac_drbg_generate fuel) d ops = Some (Ok (run (HMAC_Update id) (HMAC_Generate id) (HMAC_Instantiate id seed) ops)).
Proof.
  intros Hs Ho. destruct (hd_init id seed Hs) as (d & E & HI). exists d. split; [exact E|].
  apply (run_sim (fun _ => hd_inv id) (op_ok fuel)); auto.
  - intros n sp st s HR Hk. apply hd_reseed; auto.
  - intros n sp st len add HR [Ha Hl]. apply hd_generate; auto.
Qed.
(* a published vector, the last output cut to 20 bytes *)
(* the published vectors are evaluated at every build; too slow for coqchk, which has no virtual machine *)
Succeed Definition C45_hmac_drbg_vector :
  bind (hmac_drbg_init SHA1 [121; 52; 155; 191; 124; 221; 165; 121; 149; 87; 134; 102; 33; 201; 19; 131; 17; 70; 115; 58; 191; 140; 53; 200]) (fun d => match run_code hmac_drbg_reseed (hmac_drbg_generate 80) d [Reseed [199; 33; 91; 91; 150; 196; 142; 155; 51; 140; 116; 227; 233; 157; 254; 223]; Generate 80 []; Generate 20 []] with Some (Ok [_; o]) => Ok o | _ => Fail end) =
  Ok [198; 161; 106; 184; 212; 32; 112; 111; 15; 52; 171; 127; 236; 90; 220; 169; 216; 202; 58; 19] := ltac:(vm_compute; reflexivity).
Example C45_hmac_drbg_ex :
  bind (hmac_drbg_init MD4 (zseq 1 24)) (fun d => match run_code hmac_drbg_reseed (hmac_drbg_generate 80) d [Generate 20 []; Generate 5 [7]] with Some (Ok [_; o]) => Ok o | _ => Fail end) = Ok [200; 15; 101; 116; 56].
Proof. vm_compute. reflexivity. Qed.

(* C45: the same for Hash-DRBG, for fewer than 2^64 operations *)
Theorem C45_hash_drbg id seed ops fuel : small seed -> Forall (op_ok fuel) ops -> Z.of_nat (length ops) < M64 - 2 ->
  exists d, hash_drbg_init id seed = Ok d /\
  run_code hash_drbg_reseed (hash_drbg_generate fuel) d ops = Some (Ok (run (Hash_Reseed id) (Hash_Generate id) (Hash_Instantiate id seed) ops)).
Proof.
  intros Hs Ho HL. destruct (hs_init id seed Hs) as (d & E & HI). exists d. split; [exact E|].
  assert (EM : M64 = 18446744073709551616) by reflexivity.
  apply (run_sim (fun n sp st => hs_inv id sp st /\ 0 <= snd sp /\ snd sp + Z.of_nat n <= M64 - 1 /\ Z.of_nat n < M64 - 2) (op_ok fuel)); auto.
  - intros n sp st s (HR & R1 & R2 & R3) Hk. destruct (hs_reseed id sp st s HR Hk) as (d' & E' & I'). exists d'. split; [exact E'|]. split; [exact I'|].
    destruct sp as [[V C] rc]. unfold Hash_Reseed, hash_seed. cbn [snd] in *. lia.
  - intros n sp st len add (HR & R1 & R2 & R3) [Ha Hl]. pose proof (hs_generate id sp st len add fuel HR Ha Hl ltac:(lia)) as G. destruct (Hash_Generate id sp len add) as [o sp'].
    destruct G as (d' & E' & I' & S'). exists d'. split; [exact E'|]. split; [exact I'|]. lia.
  - unfold Hash_Instantiate, hash_seed in *. cbn [snd] in *. split; [exact HI|]. lia.
Qed.
Succeed Definition C45_hash_drbg_vector :
  bind (hash_drbg_init SHA256 [156; 251; 122; 208; 59; 228; 135; 163; 180; 43; 224; 110; 154; 228; 79; 40; 60; 43; 20; 88; 206; 200; 1; 218; 42; 230; 83; 47; 203; 86; 204; 76; 162; 7; 101; 83; 142; 141; 179; 18; 149; 116; 126; 201; 34; 193; 58; 105]) (fun d => match run_code hash_drbg_reseed (hash_drbg_generate 128) d [Reseed [150; 188; 128; 20; 249; 14; 189; 246; 144; 219; 14; 23; 27; 89; 204; 70; 199; 94; 46; 155; 142; 29; 198; 153; 198; 92; 3; 206; 178; 244; 215; 220; 111; 234; 8; 148; 5; 45; 171; 60; 68; 213; 3; 149; 12; 124; 114; 189; 123; 135; 222; 135; 203; 129; 211; 187; 81; 195; 42; 98; 247; 66; 40; 109]; Generate 128 [211; 70; 124; 120; 86; 59; 116; 193; 61; 183; 175; 54; 194; 169; 100; 130; 15; 42; 155; 27; 22; 116; 116; 144; 101; 8; 253; 172; 155; 32; 73; 166]; Generate 128 [88; 64; 161; 28; 201; 235; 247; 123; 150; 56; 84; 114; 106; 130; 99; 112; 255; 219; 47; 194; 179; 216; 71; 158; 29; 245; 220; 250; 61; 221; 209; 11]] with Some (Ok [_; o]) => Ok o | _ => Fail end) =
  Ok [113; 193; 21; 74; 42; 122; 53; 82; 65; 57; 112; 191; 105; 138; 160; 47; 20; 248; 234; 149; 232; 97; 248; 1; 244; 99; 190; 39; 134; 139; 27; 20; 177; 180; 186; 189; 158; 186; 89; 21; 166; 65; 74; 177; 16; 76; 137; 121; 177; 145; 143; 48; 148; 146; 90; 234; 176; 208; 125; 32; 55; 230; 19; 182; 60; 189; 79; 121; 217; 249; 92; 132; 180; 126; 217; 183; 114; 48; 165; 117; 21; 194; 17; 244; 143; 74; 246; 245; 237; 178; 195; 8; 179; 57; 5; 219; 48; 140; 248; 143; 85; 44; 137; 18; 196; 155; 52; 230; 108; 2; 110; 103; 179; 2; 202; 101; 177; 135; 146; 138; 26; 186; 154; 73; 237; 191; 225; 144] := ltac:(vm_compute; reflexivity).
Example C45_hash_drbg_ex :
  bind (hash_drbg_init MD4 (zseq 1 24)) (fun d => match run_code hash_drbg_reseed (hash_drbg_generate 128) d [Generate 20 []; Generate 5 [7]] with Some (Ok [_; o]) => Ok o | _ => Fail end) = Ok [30; 87; 132; 132; 37].
Proof. vm_compute. reflexivity. Qed.

(* C45: CTR-DRBG over any cipher with 16-byte blocks, with or without the derivation function, for seeds the code does not cut *)
Definition ctr_op_ok (ks fuel : nat) (df : bool) (o : op (list Z * list Z)) : Prop :=
  match o with Reseed s => seed_ok ks df (fst s) (snd s) | Generate len add => bytes add /\ (df = true -> length add <= 512)%nat /\ (len <= fuel)%nat end.
Theorem C45_ctr_drbg E bits df x y ops fuel : (forall K b, length (E K b) = 16%nat /\ bytes (E K b)) ->
  bits = 128 \/ bits = 192 \/ bits = 256 -> let ks := Z.to_nat (bits / 8) in
  seed_ok ks df x y -> Forall (ctr_op_ok ks fuel df) ops ->
  exists d, ctr_drbg_init E bits df x y = Ok d /\
  run_code (fun d s => ctr_drbg_reseed E d (fst s) (snd s)) (ctr_drbg_generate E fuel) d ops =
    Some (Ok (run (fun st s => CTR_Reseed E ks df st (fst s) (snd s)) (CTR_Generate E ks df) (CTR_Instantiate E ks df x y) ops)).
Proof.
  intros HE Hb ks Hs Ho. assert (Hk : (ks <= 32)%nat) by (unfold ks; destruct Hb as [->|[->| ->]]; cbn; lia).
  destruct (cd_init E HE bits df x y Hb Hs) as (d & Ed & HI). exists d. split; [exact Ed|]. fold ks in HI.
  apply (run_sim (fun _ => cd_inv ks df) (ctr_op_ok ks fuel df)); auto.
  - intros n sp st s HR Hk2. apply cd_reseed; auto.
  - intros n sp st len add HR (Ha & HL & Hl). apply cd_generate; auto.
Qed.

(* C46: within 512 bytes each, the derivation function is fed an encoding that determines every byte of nonce || pers *)
Theorem C46_no_truncation ks nonce pers nonce' pers' : bytes (nonce ++ pers) -> bytes (nonce' ++ pers') -> (ks <= 32)%nat ->
  (length nonce <= 512)%nat -> (length pers <= 512)%nat -> (length nonce' <= 512)%nat -> (length pers' <= 512)%nat ->
  ctr_drbg_serialize ks nonce pers = ctr_drbg_serialize ks nonce' pers' -> nonce ++ pers = nonce' ++ pers'.
Proof.
  intros B1 B2 Hk L1 L2 L3 L4 E. destruct (serialize_spec ks nonce pers L1 L2 Hk) as [E1 _]. destruct (serialize_spec ks nonce' pers' L3 L4 Hk) as [E2 _].
  assert (E3 : repeat 0 16 ++ df_S (nonce ++ pers) (slen ks) = repeat 0 16 ++ df_S (nonce' ++ pers') (slen ks)) by congruence.
  apply app_inv_head in E3. apply (df_S_inj _ _ (slen ks)); auto; rewrite app_length; change (2 ^ 32) with 4294967296; lia.
Qed.
(* C46 as stated is false: past 512 bytes (past key + block bytes without derivation) the seed is cut, whatever the cipher *)
Theorem C46_seed_bytes_refuted : exists x x', x <> x' /\ bytes x /\ bytes x' /\
  forall E bits df pers, ctr_drbg_init E bits df x pers = ctr_drbg_init E bits df x' pers.
Proof.
  exists (repeat 7 512 ++ [1]), (repeat 7 512 ++ [2]). split; [intros C; apply app_inv_head in C; discriminate|].
  split; [apply bytes_app; split; [apply bytes_repeat; unfold byte; lia|constructor; [unfold byte; lia|constructor]]|].
  split; [apply bytes_app; split; [apply bytes_repeat; unfold byte; lia|constructor; [unfold byte; lia|constructor]]|].
  intros E bits df pers. unfold ctr_drbg_init. destruct (negb _) eqn:EB; [reflexivity|]. cbv zeta. rewrite (entropy_trunc E _ df (repeat 7 512 ++ [1])), (entropy_trunc E _ df (repeat 7 512 ++ [2])).
  assert (EF : forall v n, (n <= 512)%nat -> firstn n (repeat 7 512 ++ [v]) = firstn n (repeat 7 512)).
  { intros v n Hn. rewrite firstn_app, repeat_length. replace (n - 512)%nat with 0%nat by lia. cbn [firstn]. apply app_nil_r. }
  assert (HN : (slen (Z.to_nat (bits / 8)) <= 512)%nat).
  { unfold slen. assert (bits = 128 \/ bits = 192 \/ bits = 256) as [->|[->| ->]] by lia; cbn; lia. }
  destruct df; rewrite !EF by lia; reflexivity.
Qed.

(* the axioms of every theorem above, listed at once *)
Definition DrbgProps_all := (@C45_hmac_drbg, @C45_hash_drbg, @C45_ctr_drbg, @C46_no_truncation, @C46_seed_bytes_refuted).
Print Assumptions DrbgProps_all.
