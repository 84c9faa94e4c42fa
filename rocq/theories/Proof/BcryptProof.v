(* bcrypt records: encoding, parsing, verification; the output layout of bcrypt_pbkdf *)
From Verif.Base Require Import Prelude.
From Verif.Model Require Import Encoding Bio Util Hash Blowfish.
From Verif.Proof Require Import BioProof UtilProof LinOps BlowfishProof.

Lemma byte_in a : byte a -> In a (zseq 0 256).
Proof. intros H. apply zseq_in. unfold byte in H. lia. Qed.
Lemma six_in a : 0 <= a < 64 -> In a (zseq 0 64).
Proof. intros H. apply zseq_in. lia. Qed.
Lemma chr_ok i r : 0 <= i < 64 -> b64_char (chr i :: r) = Ok (i, r).
Proof.
  intros H. unfold b64_char.
  assert (C : forallb (fun i => (rd bcrypt_table (Z.to_nat (chr i)) =? i) && negb (0 <? Z.land (rd bcrypt_table (Z.to_nat (chr i))) 0x80)) (zseq 0 64) = true) by (vm_compute; reflexivity).
  rewrite forallb_forall in C. specialize (C i (six_in i H)). apply andb_prop in C. destruct C as [C1 C2]. apply Z.eqb_eq in C1.
  destruct (0 <? _); [discriminate C2|]. rewrite C1. reflexivity.
Qed.
Lemma two_bytes (P : Z -> Z -> bool) : forallb (fun a => forallb (P a) (zseq 0 256)) (zseq 0 256) = true -> forall a b, byte a -> byte b -> P a b = true.
Proof.
  intros C a b Ha Hb. rewrite forallb_forall in C. specialize (C a (byte_in a Ha)). cbv beta in C.
  rewrite forallb_forall in C. exact (C b (byte_in b Hb)).
Qed.
Definition X1 a b := Z.lor (Z.shiftl (Z.land a 3) 4) (Z.land (Z.shiftr b 4) 15).
Definition X2 a b := Z.lor (Z.shiftl (Z.land a 15) 2) (Z.land (Z.shiftr b 6) 3).
Lemma X1_ok a b : byte a -> byte b -> 0 <= X1 a b < 64 /\ Z.shiftr (Z.land (X1 a b) 48) 4 = Z.land a 3 /\ Z.land (X1 a b) 15 = Z.shiftr b 4.
Proof.
  intros Ha Hb. pose proof (two_bytes (fun a b => (0 <=? X1 a b) && (X1 a b <? 64) && (Z.shiftr (Z.land (X1 a b) 48) 4 =? Z.land a 3) && (Z.land (X1 a b) 15 =? Z.shiftr b 4)) ltac:(vm_compute; reflexivity) a b Ha Hb) as C. cbv beta in C. lia.
Qed.
Lemma X2_ok a b : byte a -> byte b -> 0 <= X2 a b < 64 /\ Z.shiftr (Z.land (X2 a b) 60) 2 = Z.land a 15 /\ Z.land (X2 a b) 3 = Z.shiftr b 6.
Proof.
  intros Ha Hb. pose proof (two_bytes (fun a b => (0 <=? X2 a b) && (X2 a b <? 64) && (Z.shiftr (Z.land (X2 a b) 60) 2 =? Z.land a 15) && (Z.land (X2 a b) 3 =? Z.shiftr b 6)) ltac:(vm_compute; reflexivity) a b Ha Hb) as C. cbv beta in C. lia.
Qed.
Lemma one_ok a : byte a -> w8 (Z.lor (Z.shiftl (Z.shiftr a 2) 2) (Z.land a 3)) = a /\ w8 (Z.lor (Z.shiftl (Z.shiftr a 4) 4) (Z.land a 15)) = a /\ w8 (Z.lor (Z.shiftl (Z.shiftr a 6) 6) (Z.land a 63)) = a
  /\ 0 <= Z.shiftr a 2 < 64 /\ 0 <= Z.land a 63 < 64 /\ X1 a 0 = Z.shiftl (Z.land a 3) 4 /\ X2 a 0 = Z.shiftl (Z.land a 15) 2.
Proof.
  intros Ha.
  assert (C : forallb (fun a => (w8 (Z.lor (Z.shiftl (Z.shiftr a 2) 2) (Z.land a 3)) =? a) && (w8 (Z.lor (Z.shiftl (Z.shiftr a 4) 4) (Z.land a 15)) =? a) && (w8 (Z.lor (Z.shiftl (Z.shiftr a 6) 6) (Z.land a 63)) =? a)
   && (0 <=? Z.shiftr a 2) && (Z.shiftr a 2 <? 64) && (0 <=? Z.land a 63) && (Z.land a 63 <? 64) && (X1 a 0 =? Z.shiftl (Z.land a 3) 4) && (X2 a 0 =? Z.shiftl (Z.land a 15) 2)) (zseq 0 256) = true) by (vm_compute; reflexivity).
  rewrite forallb_forall in C. specialize (C a (byte_in a Ha)). cbv beta in C. lia.
Qed.
Lemma byte0 : byte 0. Proof. unfold byte. lia. Qed.
Lemma b64_roundtrip n : forall src rest fuel, (length src <= n)%nat -> bytes src -> (length src <= fuel)%nat ->
  bcrypt_b64_decode fuel (length src) (bcrypt_b64_encode src ++ rest) = Ok (src, rest).
Proof.
  induction n as [|n IH]; intros src rest fuel Hn Hb Hf.
  { destruct src; [|cbn in Hn; lia]. destruct fuel; reflexivity. }
  destruct src as [|a [|b [|c src]]].
  - destruct fuel; reflexivity.
  - destruct fuel as [|fuel]; [cbn in Hf; lia|]. inversion Hb as [|? ? Ha _]; subst. cbn [length bcrypt_b64_encode app bcrypt_b64_decode].
    destruct (one_ok a Ha) as (O1 & _ & _ & O4 & _ & O6 & _). rewrite chr_ok by exact O4. cbn [bind]. rewrite <- O6. destruct (X1_ok a 0 Ha byte0) as (R1 & R2 & _).
    rewrite chr_ok by exact R1. cbn [bind]. rewrite R2, O1. reflexivity.
  - destruct fuel as [|fuel]; [cbn in Hf; lia|]. inversion Hb as [|? ? Ha Hb']; subst. inversion Hb' as [|? ? Hbb _]; subst. cbn [length bcrypt_b64_encode app bcrypt_b64_decode].
    destruct (one_ok a Ha) as (O1 & _ & _ & O4 & _ & _ & _). destruct (one_ok b Hbb) as (_ & P2 & _ & _ & _ & _ & P7). fold (X1 a b). rewrite <- P7.
    rewrite chr_ok by exact O4. cbn [bind]. destruct (X1_ok a b Ha Hbb) as (R1 & R2 & R3). rewrite chr_ok by exact R1. cbn [bind].
    destruct (X2_ok b 0 Hbb byte0) as (S1 & S2 & _). rewrite chr_ok by exact S1. cbn [bind]. rewrite R2, R3, S2, O1, P2. reflexivity.
  - destruct fuel as [|fuel]; [cbn in Hf; lia|]. inversion Hb as [|? ? Ha Hb']; subst. inversion Hb' as [|? ? Hbb Hb'']; subst. inversion Hb'' as [|? ? Hc Hs]; subst. cbn [length bcrypt_b64_encode app bcrypt_b64_decode].
    destruct (one_ok a Ha) as (O1 & _ & _ & O4 & _). destruct (one_ok b Hbb) as (_ & P2 & _). destruct (one_ok c Hc) as (_ & _ & Q3 & _ & Q5 & _). fold (X1 a b). fold (X2 b c).
    rewrite chr_ok by exact O4. cbn [bind]. destruct (X1_ok a b Ha Hbb) as (R1 & R2 & R3). rewrite chr_ok by exact R1. cbn [bind].
    destruct (X2_ok b c Hbb Hc) as (S1 & S2 & S3). rewrite chr_ok by exact S1. cbn [bind]. rewrite chr_ok by exact Q5. cbn [bind].
    rewrite IH by (try exact Hs; cbn [length] in *; lia). cbn [bind]. rewrite R2, R3, S2, S3, O1, P2, Q3. reflexivity.
Qed.

Theorem decode_encode minor rounds salt hash : minor = 97 \/ minor = 98 -> 4 <= rounds <= 31 ->
  bytes salt -> length salt = 16%nat -> bytes hash -> length hash = 23%nat ->
  exists rec, bcrypt_encode minor rounds salt hash = Ok rec /\ bcrypt_decode rec = Ok (minor, rounds, salt, hash).
Proof.
  intros Hm Hr Hs Ls Hh Lh. unfold bcrypt_encode. replace (negb _) with false by lia. eexists. split; [reflexivity|].
  rewrite (firstn_all2 salt) by lia. rewrite (firstn_all2 hash) by lia. unfold bcrypt_decode, at_char. cbn [app nth_error bind]. unfold need.
  change (36 =? 36) with true. change (50 =? 50) with true. cbn [bind]. replace ((minor =? 97) || (minor =? 98)) with true by lia. cbn [bind].
  assert (H1 : 0 <= rounds / 10 < 4) by (split; [apply Z.div_pos; lia|apply Z.div_lt_upper_bound; lia]). pose proof (Z.mod_pos_bound rounds 10 ltac:(lia)) as H2.
  pose proof (Z.div_mod rounds 10 ltac:(lia)) as DM.
  replace (negb (48 + rounds / 10 =? 0)) with true by lia. replace (negb (48 + rounds mod 10 =? 0)) with true by lia. cbv zeta.
  match goal with |- context [negb ?b] => replace (negb b) with true by lia end. match goal with |- context [negb ?b] => replace (negb b) with true by lia end.
  cbn [skipn]. rewrite <- Ls at 2. rewrite (b64_roundtrip 16) by (auto; lia). cbn [bind].
  rewrite <- Lh at 2. rewrite (b64_roundtrip 23) by (auto; lia). cbn [bind nth_error]. change (0 =? 0) with true. cbv iota.
  replace ((48 + rounds / 10 - 48) * 10 + (48 + rounds mod 10 - 48)) with rounds by lia. reflexivity.
Qed.

(* ---- no read past the terminating NUL ---- *)
Definition safe {A} (P : A -> Prop) (o : outcome A) : Prop := match o with Ok a => P a | Fail => True | Abort => False end.
Lemma safe_bind {A B} (P : A -> Prop) (Q : B -> Prop) o (f : A -> outcome B) : safe P o -> (forall a, P a -> safe Q (f a)) -> safe Q (bind o f).
Proof. destruct o; cbn; auto. Qed.
Lemma char_safe s : In 0 s -> safe (fun p : Z * list Z => In 0 (snd p)) (b64_char s).
Proof.
  intros H. destruct s as [|ch s]; [destruct H|]. unfold b64_char. destruct (0 <? _) eqn:E; [exact I|]. cbn. destruct H as [->|H]; [|exact H].
  exfalso. revert E. vm_compute. discriminate.
Qed.
Lemma b64_safe fuel : forall len s, In 0 s -> safe (fun p : list Z * list Z => In 0 (snd p)) (bcrypt_b64_decode fuel len s).
Proof.
  induction fuel as [|fuel IH]; intros [|len] s H; cbn [bcrypt_b64_decode]; try exact H.
  apply (safe_bind _ _ _ _ (char_safe _ H)). intros [c1 s1] H1. apply (safe_bind _ _ _ _ (char_safe _ H1)). intros [c2 s2] H2. cbv zeta.
  destruct len as [|len]; [exact H2|]. apply (safe_bind _ _ _ _ (char_safe _ H2)). intros [c3 s3] H3. destruct len as [|len]; [exact H3|].
  apply (safe_bind _ _ _ _ (char_safe _ H3)). intros [c4 s4] H4. apply (safe_bind _ _ _ _ (IH len s4 H4)). intros [d s5] H5. exact H5.
Qed.
Lemma at_safe (s : list Z) i : In 0 (skipn i s) -> safe (fun c => c <> 0 -> In 0 (skipn (S i) s)) (at_char s i).
Proof.
  intros H. unfold at_char. assert (L : (i < length s)%nat).
  { destruct (Nat.lt_ge_cases i (length s)); [auto|]. rewrite skipn_all2 in H by lia. destruct H. }
  destruct (nth_error s i) as [c|] eqn:E; [|apply nth_error_None in E; lia]. cbn [safe]. intros Hc.
  apply nth_error_split in E. destruct E as (l1 & l2 & -> & <-). rewrite skipn_app in H. rewrite skipn_all, Nat.sub_diag in H. cbn in H. destruct H as [H|H]; [congruence|].
  replace (S (length l1)) with (length l1 + 1)%nat by lia. rewrite skipn_app. rewrite skipn_all2 by lia. replace (length l1 + 1 - length l1)%nat with 1%nat by lia. exact H.
Qed.
Lemma need_safe {A} (Q : A -> Prop) b k : (b = true -> safe Q k) -> safe Q (need b k).
Proof. destruct b; cbn; auto. Qed.
Theorem decode_safe s : In 0 s -> bcrypt_decode s <> Abort.
Proof.
  intros H. assert (G : safe (fun _ => True) (bcrypt_decode s)); [|destruct (bcrypt_decode s); [discriminate|discriminate|destruct G]].
  unfold bcrypt_decode.
  apply (safe_bind _ _ _ _ (at_safe s 0 H)). intros c0 K0. apply need_safe. intros B0. specialize (K0 ltac:(lia)).
  apply (safe_bind _ _ _ _ (at_safe s 1 K0)). intros c1 K1. apply need_safe. intros B1. specialize (K1 ltac:(lia)).
  apply (safe_bind _ _ _ _ (at_safe s 2 K1)). intros c2 K2. apply need_safe. intros B2. specialize (K2 ltac:(lia)).
  apply (safe_bind _ _ _ _ (at_safe s 3 K2)). intros c3 K3. apply need_safe. intros B3. specialize (K3 ltac:(lia)).
  apply (safe_bind _ _ _ _ (at_safe s 4 K3)). intros c4 K4. apply need_safe. intros B4. specialize (K4 ltac:(lia)).
  apply (safe_bind _ _ _ _ (at_safe s 5 K4)). intros c5 K5. apply need_safe. intros B5. specialize (K5 ltac:(lia)).
  cbv zeta. apply need_safe. intros _. apply need_safe. intros _.
  apply (safe_bind _ _ _ _ (at_safe s 6 K5)). intros c6 K6. apply need_safe. intros B6. specialize (K6 ltac:(lia)).
  apply (safe_bind _ _ _ _ (b64_safe 16 16 _ K6)). intros [salt s1] K7. cbn [snd] in K7.
  apply (safe_bind _ _ _ _ (b64_safe 23 23 _ K7)). intros [hash s2] K8. cbn [snd] in K8.
  apply (safe_bind _ _ _ _ (at_safe s2 0 K8)). intros c7 _. apply need_safe. intros _. exact I.
Qed.

(* ---- verification ---- *)
Lemma enc_len c : forall n l, (length l <= n)%nat -> length (blowfish_enc c l) = length l.
Proof.
  induction n as [|n IH]; intros [|a [|b l]] H; try reflexivity; [cbn in H; lia|]. cbn [blowfish_enc]. destruct (blowfish_encipher c (a, b)). cbn [length] in *. rewrite IH by lia. reflexivity.
Qed.
Lemma words_len n : forall d o, length (bf_words n d o) = n.
Proof. induction n as [|n IH]; intros d o; cbn [bf_words]; [reflexivity|]. destruct (blowfish_stream2word d o). cbn. rewrite IH. reflexivity. Qed.
Lemma iter_len c n l : length (Nat.iter n (blowfish_enc c) l) = length l.
Proof. induction n as [|n IH]; [reflexivity|]. change (Nat.iter (S n) (blowfish_enc c) l) with (blowfish_enc c (Nat.iter n (blowfish_enc c) l)). rewrite (enc_len _ _ _ (le_n _)). exact IH. Qed.
Lemma flat32_len f : (forall x, length (f x) = 4%nat) -> forall l : list Z, length (flat_map f l : list Z) = (4 * length l)%nat.
Proof. intros H. induction l as [|a l IH]; cbn [flat_map length]; [reflexivity|]. rewrite app_length, H, IH. lia. Qed.
Lemma flat_bytes (f : Z -> list Z) : (forall x, bytes (f x)) -> forall l, bytes (flat_map f l).
Proof. intros H. induction l as [|a l IH]; cbn [flat_map]; [constructor|]. apply bytes_app. split; auto. Qed.
Lemma hash192_len p s r : length (bcrypt_hash192 p s r) = 24%nat.
Proof. unfold bcrypt_hash192. cbv zeta. rewrite flat32_len by (intros; reflexivity). rewrite iter_len, words_len. reflexivity. Qed.
Lemma hash192_bytes p s r : bytes (bcrypt_hash192 p s r).
Proof. unfold bcrypt_hash192. cbv zeta. apply flat_bytes. intros. rewrite write32be_spec. apply be_bytes_bytes. Qed.
Lemma hash256_len p s r : length (bcrypt_hash256 p s r) = 32%nat.
Proof. unfold bcrypt_hash256. cbv zeta. rewrite flat32_len by (intros; reflexivity). rewrite iter_len, words_len. reflexivity. Qed.
Lemma derive_ok p s r m : m = 97 \/ m = 98 -> 4 <= r <= 31 -> exists h, bcrypt_derive p s r m = Ok h /\ bytes h /\ length h = 23%nat.
Proof.
  intros Hm Hr. unfold bcrypt_derive. replace ((r <? 4) || (31 <? r)) with false by lia.
  assert (K : exists k, bcrypt_key p m = Some k). { unfold bcrypt_key. cbv zeta. destruct (Z.eqb_spec m 97); [eauto|]. destruct (Z.eqb_spec m 98); [eauto|lia]. }
  destruct K as [k ->]. eexists. split; [reflexivity|]. split; [apply bytes_firstn, hash192_bytes|]. rewrite firstn_length, hash192_len. reflexivity.
Qed.
Theorem verify_generate p salt r m : m = 97 \/ m = 98 -> 4 <= r <= 31 -> bytes salt -> length salt = 16%nat ->
  exists rec h, bcrypt_generate p salt r m = Ok rec /\ bcrypt_derive p salt r m = Ok h /\ bcrypt_decode rec = Ok (m, r, salt, h) /\
    forall q, exists h', bcrypt_derive q salt r m = Ok h' /\ bcrypt_verify q rec = Ok (if list_eq_dec Z.eq_dec h' h then true else false).
Proof.
  intros Hm Hr Hs Ls. destruct (derive_ok p salt r m Hm Hr) as (h & Eh & Bh & Lh). destruct (decode_encode m r salt h Hm Hr Hs Ls Bh Lh) as (rec & E1 & E2).
  exists rec, h. unfold bcrypt_generate. rewrite Eh. cbn [bind]. split; [exact E1|]. split; [reflexivity|]. split; [exact E2|].
  intros q. destruct (derive_ok q salt r m Hm Hr) as (h' & Eh' & Bh' & Lh'). exists h'. split; [exact Eh'|]. unfold bcrypt_verify. rewrite E2, Eh'. f_equal.
  destruct (list_eq_dec Z.eq_dec h' h) as [->|N].
  - apply Z.eqb_eq. rewrite memequal_iff by auto. destruct (list_eq_dec Z.eq_dec h h); congruence.
  - apply Z.eqb_neq. rewrite memequal_iff by (auto; congruence). destruct (list_eq_dec Z.eq_dec h' h); [congruence|discriminate].
Qed.
Theorem wrap_key p q salt r : (length p mod 256 = 255)%nat -> (length q mod 256 = 255)%nat -> bcrypt_generate p salt r 97 = bcrypt_generate q salt r 97.
Proof.
  intros Hp Hq. unfold bcrypt_generate, bcrypt_derive.
  assert (K : forall x, (length x mod 256 = 255)%nat -> bcrypt_key x 97 = Some []).
  { intros x Hx. unfold bcrypt_key. cbv zeta. change (97 =? 97) with true. cbv iota. change 0xff with (Z.ones 8). rewrite Z.land_ones by lia.
    replace ((Z.of_nat (length x) + 1) mod 2 ^ 8) with 0; [reflexivity|]. symmetry. change (2 ^ 8) with 256. apply Z.mod_divide; [lia|]. exists (Z.of_nat (length x / 256)%nat + 1).
    pose proof (Nat.div_mod (length x) 256 ltac:(lia)). lia. }
  rewrite (K p Hp), (K q Hq). reflexivity.
Qed.
Lemma b_key p q : (72 < length p)%nat -> (72 < length q)%nat -> firstn 73 p = firstn 73 q -> bcrypt_key p 98 = bcrypt_key q 98.
Proof.
  intros Hp Hq E. unfold bcrypt_key. cbv zeta. change (98 =? 97) with false. change (98 =? 98) with true. cbv iota.
  replace (72 <? length p)%nat with true by (symmetry; apply Nat.ltb_lt; lia). replace (72 <? length q)%nat with true by (symmetry; apply Nat.ltb_lt; lia). f_equal. change (72 + 1)%nat with 73%nat.
  assert (G : forall x : list Z, (72 < length x)%nat -> firstn 73 (if (255 <=? length x)%nat then firstn 255 x else x ++ [0]) = firstn 73 x).
  { intros x Hx. destruct (255 <=? length x)%nat; [rewrite firstn_firstn; reflexivity|]. rewrite firstn_app. replace (73 - length x)%nat with 0%nat by lia. cbn [firstn]. apply app_nil_r. }
  rewrite !G by auto. exact E.
Qed.

(* ---- bcrypt_pbkdf layout ---- *)
Lemma div_mod_unique j s c : (c < s)%nat -> ((j * s + c) / s = j /\ (j * s + c) mod s = c)%nat.
Proof.
  intros H. split; [rewrite Nat.div_add_l by lia; rewrite Nat.div_small by lia; lia|]. rewrite Nat.add_comm, Nat.mod_add by lia. apply Nat.mod_small. lia.
Qed.
Lemma scatter_spec stride c size out N : (c < stride)%nat -> (size <= N * stride + c)%nat -> (forall j, (j < N)%nat -> (j * stride + c < size)%nat) ->
  forall n i key, length key = size -> (i <= N <= i + n)%nat ->
  exists key', bpb_scatter n i stride (S c) size out key = (key', N) /\ length key' = size /\
  forall d, rd key' d = if ((d <? size) && (d mod stride =? c) && (i <=? d / stride))%nat then rd out (d / stride) else rd key d.
Proof.
  intros Hc HN1 HN2. induction n as [|n IH]; intros i key HL Hi; cbn [bpb_scatter]; cbv zeta; replace (S c - 1)%nat with c by lia.
  - assert (i = N) as -> by lia. exists key. split; [reflexivity|]. split; [exact HL|]. intros d.
    destruct (Nat.ltb_spec d size) as [D1|D1]; [|reflexivity]. destruct (Nat.eqb_spec (d mod stride) c) as [D2|D2]; [|reflexivity].
    destruct (Nat.leb_spec N (d / stride)) as [D3|D3]; [|reflexivity]. pose proof (Nat.div_mod d stride ltac:(lia)). exfalso. nia.
  - destruct (Nat.leb_spec size (i * stride + c)) as [C|C].
    + assert (i = N) as -> by (destruct (Nat.lt_ge_cases i N) as [L|L]; [specialize (HN2 i L); lia|lia]). exists key. split; [reflexivity|]. split; [exact HL|]. intros d.
      destruct (Nat.ltb_spec d size) as [D1|D1]; [|reflexivity]. destruct (Nat.eqb_spec (d mod stride) c) as [D2|D2]; [|reflexivity].
      destruct (Nat.leb_spec N (d / stride)) as [D3|D3]; [|reflexivity]. pose proof (Nat.div_mod d stride ltac:(lia)). exfalso. nia.
    + assert (LN : (i < N)%nat). { destruct (Nat.lt_ge_cases i N) as [L|L]; [exact L|]. exfalso. nia. }
      destruct (IH (S i) (upd key (i * stride + c) (rd out i))) as (key' & E & L' & R); [rewrite upd_length; exact HL|lia|].
      exists key'. split; [exact E|]. split; [exact L'|]. intros d. rewrite R. destruct (div_mod_unique i stride c Hc) as [U1 U2].
      destruct (Nat.ltb_spec d size) as [D1|D1].
      2:{ cbn [andb]. unfold rd. apply nth_upd_other. lia. }
      destruct (Nat.eqb_spec (d mod stride) c) as [D2|D2]; cbn [andb].
      2:{ unfold rd. apply nth_upd_other. intros <-. congruence. }
      destruct (Nat.leb_spec (S i) (d / stride)) as [D3|D3].
      { replace (i <=? d / stride)%nat with true by (symmetry; apply Nat.leb_le; lia). reflexivity. }
      destruct (Nat.leb_spec i (d / stride)) as [D4|D4].
      * assert (d = i * stride + c)%nat as -> by (pose proof (Nat.div_mod d stride ltac:(lia)); nia). rewrite U1. unfold rd. apply nth_upd_same. lia.
      * unfold rd. apply nth_upd_other. intros <-. lia.
Qed.
(* how many bytes of a size-byte buffer have residue c, and residue at least c *)
Definition col (stride size c : nat) : nat := (size / stride + (if c <? size mod stride then 1 else 0))%nat.
Definition left_over (stride size c : nat) : nat := ((stride - c) * (size / stride) + (size mod stride - c))%nat.
Lemma col_bounds stride size c : (c < stride)%nat -> (size <= col stride size c * stride + c)%nat /\ forall j, (j < col stride size c)%nat -> (j * stride + c < size)%nat.
Proof.
  intros Hc. unfold col. pose proof (Nat.div_mod size stride ltac:(lia)) as DM. pose proof (Nat.mod_upper_bound size stride ltac:(lia)) as MB.
  destruct (Nat.ltb_spec c (size mod stride)) as [L|L]; split; try intros j Hj; nia.
Qed.
Lemma left_step stride size c : (c < stride)%nat -> left_over stride size c = (col stride size c + left_over stride size (S c))%nat.
Proof.
  intros Hc. unfold left_over, col. pose proof (Nat.mod_upper_bound size stride ltac:(lia)) as MB. set (q := (size / stride)%nat). replace (stride - c)%nat with (S (stride - S c)) by lia.
  destruct (Nat.ltb_spec c (size mod stride)) as [L|L]; nia.
Qed.
Lemma col_mono stride size c : (col stride size (S c) <= col stride size c)%nat.
Proof. unfold col. destruct (Nat.ltb_spec c (size mod stride)); destruct (Nat.ltb_spec (S c) (size mod stride)); lia. Qed.
Lemma loop_spec block stride size : (0 < stride <= size)%nat -> forall fuel c key amt, (c <= stride)%nat -> (stride - c <= fuel)%nat -> length key = size ->
  (col stride size c <= amt)%nat ->
  exists key', bpb_loop fuel block stride size (S c) (left_over stride size c) amt key = Some key' /\ length key' = size /\
  forall d, (d < size)%nat -> rd key' d = if (c <=? d mod stride)%nat then rd (block (S (d mod stride))) (d / stride) else rd key d.
Proof.
  intros Hs. induction fuel as [|fuel IH]; intros c key amt Hc Hf HL Ha.
  - assert (c = stride) as -> by lia. assert (E : left_over stride size stride = 0%nat).
    { unfold left_over. rewrite Nat.sub_diag. pose proof (Nat.mod_upper_bound size stride ltac:(lia)). lia. }
    rewrite E. exists key. split; [reflexivity|]. split; [exact HL|]. intros d Hd. pose proof (Nat.mod_upper_bound d stride ltac:(lia)).
    replace (stride <=? d mod stride)%nat with false by (symmetry; apply Nat.leb_gt; lia). reflexivity.
  - cbn [bpb_loop]. destruct (Nat.eq_dec c stride) as [->|NC].
    { assert (E : left_over stride size stride = 0%nat).
      { unfold left_over. rewrite Nat.sub_diag. pose proof (Nat.mod_upper_bound size stride ltac:(lia)). lia. }
      rewrite E. exists key. split; [reflexivity|]. split; [exact HL|]. intros d Hd. pose proof (Nat.mod_upper_bound d stride ltac:(lia)).
      replace (stride <=? d mod stride)%nat with false by (symmetry; apply Nat.leb_gt; lia). reflexivity. }
    assert (Hq : (1 <= size / stride)%nat) by (apply Nat.div_le_lower_bound; lia).
    assert (C1 : (1 <= col stride size c)%nat) by (unfold col; lia).
    pose proof (left_step stride size c ltac:(lia)) as LS.
    replace (0 <? left_over stride size c)%nat with true by (symmetry; apply Nat.ltb_lt; lia). cbv zeta.
    set (amt' := if (left_over stride size c <? amt)%nat then left_over stride size c else amt).
    assert (Ha' : (col stride size c <= amt')%nat) by (unfold amt'; destruct (_ <? _)%nat; lia).
    destruct (col_bounds stride size c ltac:(lia)) as [B1 B2].
    destruct (scatter_spec stride c size (block (S c)) (col stride size c) ltac:(lia) B1 B2 amt' 0 key HL ltac:(lia)) as (key1 & E1 & L1 & R1).
    rewrite E1. replace (left_over stride size c - col stride size c)%nat with (left_over stride size (S c)) by lia.
    destruct (IH (S c) key1 amt' ltac:(lia) ltac:(lia) L1) as (key2 & E2 & L2 & R2); [pose proof (col_mono stride size c); lia|].
    exists key2. split; [exact E2|]. split; [exact L2|]. intros d Hd. rewrite R2 by exact Hd. rewrite R1.
    replace (d <? size)%nat with true by (symmetry; apply Nat.ltb_lt; lia). change (0 <=? d / stride)%nat with true. rewrite andb_true_r. cbn [andb].
    destruct (Nat.leb_spec (S c) (d mod stride)) as [A|A].
    + replace (c <=? d mod stride)%nat with true by (symmetry; apply Nat.leb_le; lia). reflexivity.
    + destruct (Nat.eqb_spec (d mod stride) c) as [A2|A2]; cbn [andb].
      * rewrite A2, Nat.leb_refl. reflexivity.
      * replace (c <=? d mod stride)%nat with false by (symmetry; apply Nat.leb_gt; lia). reflexivity.
Qed.
Theorem pbkdf_layout fuel key0 pass salt rounds size : 0 < rounds -> (1 <= length pass)%nat -> (1 <= length salt)%nat -> Z.of_nat (length salt) <= 2 ^ 20 ->
  (1 <= size <= 1024)%nat -> length key0 = size -> (32 <= fuel)%nat ->
  let stride := ((size + 31) / 32)%nat in
  exists key, bcrypt_pbkdf fuel key0 pass salt rounds size = Some (Ok key) /\ length key = size /\
  forall d, (d < size)%nat -> rd key d = rd (bpb_block (sha512_of [pass]) salt rounds (S (d mod stride))) (d / stride).
Proof.
  intros Hr Hp Hs Hs2 Hz HL Hf stride. unfold bcrypt_pbkdf.
  replace (_ || _) with false. 2:{ symmetry. repeat rewrite orb_false_iff. repeat split; try apply Z.eqb_neq; try apply Nat.eqb_neq; try apply Nat.ltb_ge; try apply Z.ltb_ge; lia. }
  replace (size + 32 - 1)%nat with (size + 31)%nat by lia. fold stride. cbv zeta.
  assert (S1 : (1 <= stride)%nat) by (apply Nat.div_le_lower_bound; lia). assert (S2 : (stride <= 32)%nat) by (apply Nat.lt_succ_r, Nat.div_lt_upper_bound; lia).
  assert (S3 : (stride <= size)%nat) by (apply Nat.lt_succ_r, Nat.div_lt_upper_bound; lia).
  assert (LO : left_over stride size 0 = size).
  { unfold left_over. rewrite !Nat.sub_0_r. pose proof (Nat.div_mod size stride ltac:(lia)). lia. }
  destruct (loop_spec (bpb_block (sha512_of [pass]) salt rounds) stride size ltac:(lia) fuel 0 key0 ((size + stride - 1) / stride) ltac:(lia) ltac:(lia) HL) as (key & E & L & R).
  { unfold col. pose proof (Nat.div_mod size stride ltac:(lia)) as DM. pose proof (Nat.mod_upper_bound size stride ltac:(lia)). apply Nat.div_le_lower_bound; [lia|].
    destruct (Nat.ltb_spec 0 (size mod stride)); nia. }
  rewrite LO in E. rewrite E. exists key. split; [reflexivity|]. split; [exact L|]. intros d Hd. rewrite R by exact Hd. reflexivity.
Qed.
Theorem a_truncates p q salt r : let k := ((length p + 1) mod 256)%nat in
  (255 <= length p)%nat -> (255 <= length q)%nat -> (length q mod 256 = length p mod 256)%nat -> firstn k p = firstn k q ->
  bcrypt_generate p salt r 97 = bcrypt_generate q salt r 97.
Proof.
  intros k Hp Hq Hm E. unfold bcrypt_generate, bcrypt_derive.
  assert (K : forall x, (255 <= length x)%nat -> (length x mod 256 = length p mod 256)%nat -> bcrypt_key x 97 = Some (firstn k x)).
  { intros x Hx Hxm. unfold bcrypt_key. cbv zeta. change (97 =? 97) with true. cbv iota. replace (255 <=? length x)%nat with true by (symmetry; apply Nat.leb_le; lia).
    assert (Ek : Z.to_nat (Z.land (Z.of_nat (length x) + 1) 255) = k).
    { change 255 with (Z.ones 8). rewrite Z.land_ones by lia. change (2 ^ 8) with (Z.of_nat 256). replace (Z.of_nat (length x) + 1) with (Z.of_nat (length x + 1)) by lia. rewrite <- Nat2Z.inj_mod, Nat2Z.id.
      unfold k. rewrite Nat.add_mod, Hxm, <- Nat.add_mod by lia. reflexivity. }
    rewrite Ek, firstn_firstn. f_equal. f_equal. assert (k < 256)%nat by (apply Nat.mod_upper_bound; lia). lia. }
  rewrite (K p Hp eq_refl), (K q Hq Hm), E. reflexivity.
Qed.
