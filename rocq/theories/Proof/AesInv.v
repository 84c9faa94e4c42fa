From Verif.Base Require Import Prelude.
From Verif.Model Require Import Encoding Bio Util Aes.
From Verif.Spec Require Import AesSpec.
From Verif.Proof Require Import PolymodProof LinOps BioProof RandProof AesProof.
#[local] Ltac Zify.zify_post_hook ::= idtac.

Lemma lxor_sw a b c d : Z.lxor (Z.lxor a b) (Z.lxor c d) = Z.lxor (Z.lxor a c) (Z.lxor b d).
Proof. xor_solve. Qed.
Notation x4 a b c d := (Z.lxor (Z.lxor (Z.lxor a b) c) d).
Lemma x4_add a1 b1 c1 d1 a2 b2 c2 d2 : Z.lxor (x4 a1 b1 c1 d1) (x4 a2 b2 c2 d2) = x4 (Z.lxor a1 a2) (Z.lxor b1 b2) (Z.lxor c1 c2) (Z.lxor d1 d2).
Proof.
  rewrite (lxor_sw (Z.lxor (Z.lxor a1 b1) c1) d1). rewrite (lxor_sw (Z.lxor a1 b1) c1). rewrite (lxor_sw a1 b1). reflexivity.
Qed.
Lemma x4_swap a1 b1 c1 d1 a2 b2 c2 d2 a3 b3 c3 d3 a4 b4 c4 d4 :
  x4 (x4 a1 b1 c1 d1) (x4 a2 b2 c2 d2) (x4 a3 b3 c3 d3) (x4 a4 b4 c4 d4) =
  x4 (x4 a1 a2 a3 a4) (x4 b1 b2 b3 b4) (x4 c1 c2 c3 c4) (x4 d1 d2 d3 d4).
Proof.
  rewrite (x4_add a1 b1 c1 d1). rewrite (x4_add (Z.lxor a1 a2) (Z.lxor b1 b2)). rewrite (x4_add (Z.lxor (Z.lxor a1 a2) a3)). reflexivity.
Qed.
Lemma gm_x4 c x y z t : gm c (x4 x y z t) = x4 (gm c x) (gm c y) (gm c z) (gm c t).
Proof. rewrite !(gm_lin c). reflexivity. Qed.

(* columns of the product of the two circulant matrices, checked on all bytes *)
Definition e4 (f : Z -> Z) (g : Z -> Z) : bool := forallb (fun x => f x =? g x) (zseq 0 256).
Lemma e4_ok f g : e4 f g = true -> forall x, byte x -> f x = g x.
Proof. intros H x Hx. apply Z.eqb_eq. revert x Hx. apply byte_all. exact H. Qed.
Lemma p_aa x : byte x -> x4 (gm 14 (gm 2 x)) (gm 11 x) (gm 13 x) (gm 9 (gm 3 x)) = x.
Proof. revert x. apply (e4_ok (fun x => x4 (gm 14 (gm 2 x)) (gm 11 x) (gm 13 x) (gm 9 (gm 3 x))) (fun x => x)). vm_compute. reflexivity. Qed.
Lemma p_ab x : byte x -> x4 (gm 14 (gm 3 x)) (gm 11 (gm 2 x)) (gm 13 x) (gm 9 x) = 0.
Proof. revert x. apply (e4_ok (fun x => x4 (gm 14 (gm 3 x)) (gm 11 (gm 2 x)) (gm 13 x) (gm 9 x)) (fun x => 0)). vm_compute. reflexivity. Qed.
Lemma p_ac x : byte x -> x4 (gm 14 x) (gm 11 (gm 3 x)) (gm 13 (gm 2 x)) (gm 9 x) = 0.
Proof. revert x. apply (e4_ok (fun x => x4 (gm 14 x) (gm 11 (gm 3 x)) (gm 13 (gm 2 x)) (gm 9 x)) (fun x => 0)). vm_compute. reflexivity. Qed.
Lemma p_ad x : byte x -> x4 (gm 14 x) (gm 11 x) (gm 13 (gm 3 x)) (gm 9 (gm 2 x)) = 0.
Proof. revert x. apply (e4_ok (fun x => x4 (gm 14 x) (gm 11 x) (gm 13 (gm 3 x)) (gm 9 (gm 2 x))) (fun x => 0)). vm_compute. reflexivity. Qed.
Lemma x4_rot a b c d : x4 a b c d = x4 b c d a.
Proof. xor_solve. Qed.
#[local] Opaque gm sb ib b4 Z.lxor.
Lemma col0 a b c d : byte a -> byte b -> byte c -> byte d ->
  x4 (gm 14 (x4 (gm 2 a) (gm 3 b) c d)) (gm 11 (x4 a (gm 2 b) (gm 3 c) d)) (gm 13 (x4 a b (gm 2 c) (gm 3 d))) (gm 9 (x4 (gm 3 a) b c (gm 2 d))) = a.
Proof.
  intros. rewrite (gm_x4 14), (gm_x4 11), (gm_x4 13), (gm_x4 9), x4_swap, p_aa, p_ab, p_ac, p_ad, !Z.lxor_0_r by auto. reflexivity.
Qed.
Lemma x4_rot2 a b c d : x4 a b c d = x4 c d a b.
Proof. rewrite (x4_rot a), (x4_rot b). reflexivity. Qed.
Lemma x4_rot3 a b c d : x4 a b c d = x4 d a b c.
Proof. rewrite (x4_rot d a b c). reflexivity. Qed.
Lemma imix_mix a b c d : byte a -> byte b -> byte c -> byte d -> imixc (mixc [a; b; c; d]) = [a; b; c; d].
Proof.
  intros Ha Hb Hc Hd. unfold imixc, mixc. cbn [nth]. f_equal; [|f_equal; [|f_equal; [|f_equal]]].
  - apply col0; auto.
  - rewrite x4_rot.
    rewrite <- (col0 b c d a) at 5 by auto. f_equal; [f_equal; [f_equal|]|]; f_equal; rewrite ?(x4_rot a), ?(x4_rot (gm 2 a)), ?(x4_rot (gm 3 a)); reflexivity.
  - rewrite x4_rot, x4_rot.
    rewrite <- (col0 c d a b) at 5 by auto. f_equal; [f_equal; [f_equal|]|]; f_equal; apply x4_rot2.
  - rewrite x4_rot3.
    rewrite <- (col0 d a b c) at 5 by auto. f_equal; [f_equal; [f_equal|]|]; f_equal; apply x4_rot3.
Qed.

(* ---- the layers are inverses of each other ---- *)
#[local] Opaque gm sb ib Z.lxor.
Lemma columns_inv s : ok16 s -> columns imixc (columns mixc s) = s.
Proof.
  intros [Hs Ls]. dest16 s Hs Ls. unfold columns. cbn [seq map concat Nat.mul Nat.add skipn firstn app].
  repeat match goal with |- context [mixc [?a; ?b; ?c; ?d]] => let E := fresh "E" in
    assert (E : imixc (mixc [a; b; c; d]) = [a; b; c; d]) by (apply imix_mix; assumption);
    let m := fresh "m" in let Em := fresh "Em" in remember (mixc [a; b; c; d]) as m eqn:Em; unfold mixc in Em; cbn [nth] in Em; subst m end.
  cbn [app firstn skipn concat]. rewrite E, E0, E1, E2. reflexivity.
Qed.
Lemma ishift_shift s : ok16 s -> inv_shift_rows (shift_rows s) = s.
Proof. intros [Hs Ls]. dest16 s Hs Ls. reflexivity. Qed.
Lemma shift_map (f : Z -> Z) s : length s = 16%nat -> shift_rows (map f s) = map f (shift_rows s).
Proof. intros L. do 16 (destruct s as [|? s]; [discriminate L|]). destruct s; [|discriminate L]. reflexivity. Qed.
Lemma map_ib_sb s : bytes s -> map ib (map sb s) = s.
Proof. intros H. rewrite map_map. rewrite <- (map_id s) at 2. apply map_ext_Forall. eapply Forall_impl; [|exact H]. intros a Ha. apply ib_sb; auto. Qed.

Definition SS (s : list Z) : list Z := shift_rows (map sb s).
Definition iSS (s : list Z) : list Z := map ib (inv_shift_rows s).
Lemma SS_ok s : ok16 s -> ok16 (SS s).
Proof. intros _. apply shift_ok, map_bytes, sb_byte. Qed.
Lemma iSS_ok s : ok16 s -> ok16 (iSS s).
Proof. intros _. split; [apply map_bytes, ib_byte|]. reflexivity. Qed.
Lemma iSS_SS s : ok16 s -> iSS (SS s) = s.
Proof.
  intros H. unfold iSS, SS. rewrite ishift_shift; [apply map_ib_sb; apply H|].
  split; [apply map_bytes, sb_byte|]. rewrite map_length. apply H.
Qed.
Definition ird (k s : list Z) : list Z := columns imixc (xorl (iSS s) k).
Lemma ird_ok k s : ok16 s -> ok16 k -> ok16 (ird k s).
Proof. intros A B. apply imixc_ok. apply xorl_ok; auto using iSS_ok. Qed.
Lemma xorl_cancel a b : ok16 a -> ok16 b -> xorl (xorl a b) b = a.
Proof. intros [A1 A2] [B1 B2]. apply xorl_involutive. lia. Qed.
Lemma ird_rnd k s : ok16 s -> ok16 k -> ird k (SS (rnd k s)) = SS s.
Proof.
  intros Hs Hk. unfold ird. rewrite iSS_SS by (apply rnd_ok; auto). unfold rnd. fold (SS s).
  rewrite xorl_cancel; auto using mixc_ok, SS_ok. { apply columns_inv. apply SS_ok; auto. } apply mixc_ok. apply SS_ok; auto.
Qed.
Lemma ifold (rk : nat -> list Z) (l : list nat) : (forall r, In r l -> ok16 (rk r)) -> forall s, ok16 s ->
  fold_left (fun s i => ird (rk i) s) (rev l) (SS (fold_left (fun s i => rnd (rk i) s) l s)) = SS s.
Proof.
  induction l as [|i l IH]; intros Hr s Hs; [reflexivity|]. cbn [rev fold_left]. rewrite fold_left_app. cbn [fold_left].
  assert (Hi : ok16 (rk i)) by (apply Hr; cbn; auto).
  rewrite IH; [apply ird_rnd; auto|intros; apply Hr; cbn; auto|apply rnd_ok; auto].
Qed.
Lemma irounds_eq w l : (forall r, In r l -> ok16 (round_key w r)) -> forall s, ok16 s ->
  fold_left (fips_inv_round w) l s = fold_left (fun s i => ird (round_key w i) s) l s.
Proof.
  induction l as [|i l IH]; intros Hr s Hs; [reflexivity|]. cbn [fold_left].
  assert (Hi : ok16 (round_key w i)) by (apply Hr; cbn; auto).
  assert (E : fips_inv_round w s i = ird (round_key w i) s).
  { unfold fips_inv_round, ird, add_round_key. rewrite isub_eq by (apply ishift_ok, Hs). apply imix_cols_eq. apply (xorl_ok (iSS s)); auto using iSS_ok. }
  rewrite E. apply IH; [intros; apply Hr; cbn; auto|]. apply ird_ok; auto.
Qed.
Lemma fips_inv_eq nr w src : (forall r, (r <= nr)%nat -> ok16 (round_key w r)) -> ok16 src -> (1 <= nr)%nat ->
  fips_inv_cipher nr w src = xorl (iSS (fold_left (fun s i => ird (round_key w i) s) (rev (seq 1 (nr - 1))) (xorl src (round_key w nr)))) (round_key w 0).
Proof.
  intros HK HS HN. unfold fips_inv_cipher, add_round_key.
  assert (O0 := HK nr ltac:(lia)).
  assert (HR : forall r, In r (rev (seq 1 (nr - 1))) -> ok16 (round_key w r)).
  { intros r Hr. apply in_rev in Hr. apply in_seq in Hr. apply HK; lia. }
  rewrite irounds_eq by (auto using xorl_ok).
  f_equal. apply isub_eq. apply ishift_ok. apply (fold_ok ird (round_key w)); auto using ird_ok, xorl_ok.
Qed.
(* InvCipher undoes Cipher *)
Lemma fips_inverse nr w src : (forall r, (r <= nr)%nat -> ok16 (round_key w r)) -> ok16 src -> (1 <= nr)%nat ->
  fips_inv_cipher nr w (fips_cipher nr w src) = src.
Proof.
  intros HK HS HN. assert (O0 := HK 0%nat ltac:(lia)). assert (ON := HK nr ltac:(lia)).
  assert (HR : forall r, In r (seq 1 (nr - 1)) -> ok16 (round_key w r)).
  { intros r Hr. apply in_seq in Hr. apply HK; lia. }
  rewrite fips_eq by auto. set (s := fold_left _ _ _).
  assert (OS : ok16 s). { apply (fold_ok rnd (round_key w)); auto using rnd_ok, xorl_ok. }
  fold (SS s). rewrite fips_inv_eq by (auto using xorl_ok, SS_ok).
  rewrite xorl_cancel by auto using SS_ok. unfold s. rewrite ifold by auto using xorl_ok.
  rewrite iSS_SS by auto using xorl_ok. apply xorl_cancel; auto.
Qed.

(* ---- the equivalent inverse cipher: InvMixColumns is linear ---- *)
Lemma imixc_lin a b c d a' b' c' d' :
  imixc (xorl [a; b; c; d] [a'; b'; c'; d']) = xorl (imixc [a; b; c; d]) (imixc [a'; b'; c'; d']).
Proof.
  unfold imixc, xorl. cbn [map2 nth]. rewrite !gm_lin.
  f_equal; [|f_equal; [|f_equal; [|f_equal]]]; symmetry; apply x4_add.
Qed.
Lemma columns_lin s t : ok16 s -> ok16 t -> columns imixc (xorl s t) = xorl (columns imixc s) (columns imixc t).
Proof.
  intros [Hs Ls] [Ht Lt]. dest16 s Hs Ls. dest16 t Ht Lt.
  unfold columns. cbn [xorl map2 seq map concat Nat.mul Nat.add skipn firstn app].
  repeat match goal with |- context [imixc [Z.lxor ?a ?x; Z.lxor ?b ?y; Z.lxor ?c ?z; Z.lxor ?d ?t]] =>
    change [Z.lxor a x; Z.lxor b y; Z.lxor c z; Z.lxor d t] with (xorl [a; b; c; d] [x; y; z; t]); rewrite (imixc_lin a b c d x y z t) end.
  unfold imixc. reflexivity.
Qed.
Lemma drnd_ird k s : ok16 s -> ok16 k -> drnd (columns imixc k) s = ird k s.
Proof. intros Hs Hk. unfold drnd, ird. fold (iSS s). symmetry. apply columns_lin; auto using iSS_ok. Qed.

Definition dkey (nr : nat) (rk : nat -> list Z) (i : nat) : list Z :=
  if ((i =? 0) || (i =? nr))%nat then rk (nr - i)%nat else columns imixc (rk (nr - i)%nat).
Lemma rev_seq n : forall a, rev (seq a n) = map (fun i => (a + (n - i))%nat) (seq 1 n).
Proof.
  induction n as [|n IH]; intros a; [reflexivity|]. rewrite seq_S at 1. rewrite rev_app_distr. cbn [rev app].
  rewrite IH. cbn [seq map]. f_equal; [lia|]. rewrite <- (seq_shift n 1), map_map. apply map_ext_in. intros i Hi. apply in_seq in Hi. lia.
Qed.
Lemma dfold nr (rk : nat -> list Z) l : (forall r, In r l -> (0 < r < nr)%nat /\ ok16 (rk (nr - r)%nat)) -> forall s, ok16 s ->
  fold_left (fun s i => drnd (dkey nr rk i) s) l s = fold_left (fun s i => ird (rk i) s) (map (fun i => nr - i)%nat l) s.
Proof.
  induction l as [|i l IH]; intros Hr s Hs; [reflexivity|]. cbn [fold_left map].
  destruct (Hr i) as [Hi Ho]; [cbn; auto|].
  assert (E : drnd (dkey nr rk i) s = ird (rk (nr - i)%nat) s).
  { unfold dkey. destruct (Nat.eqb_spec i 0) as [|_]; [lia|]. destruct (Nat.eqb_spec i nr) as [|_]; [lia|]. cbn [orb]. apply drnd_ird; auto. }
  rewrite E. apply IH; [intros; apply Hr; cbn; auto|]. apply ird_ok; auto.
Qed.
Lemma dec_fips nr h K D w src : nr = (2 * S h)%nat -> (forall r, (r <= nr)%nat -> ok16 (round_key w r)) ->
  (forall r, (r <= nr)%nat -> Kw D (4 * r) = W (dkey nr (round_key w) r)) -> ok16 src ->
  aes_decrypt (MkAes nr K D) src = fips_inv_cipher nr w src.
Proof.
  intros EN HO HK HS.
  assert (OD : forall r, (r <= nr)%nat -> ok16 (dkey nr (round_key w) r)).
  { intros r Hr. unfold dkey. destruct ((r =? 0) || (r =? nr))%nat; [apply HO; lia|]. apply imixc_ok. apply HO; lia. }
  rewrite (dec_blk nr h K D (dkey nr (round_key w)) src EN) by auto.
  rewrite fips_inv_eq by (auto; lia).
  assert (E0 : dkey nr (round_key w) 0 = round_key w nr). { unfold dkey. cbn [Nat.eqb orb]. f_equal. lia. }
  assert (E1 : dkey nr (round_key w) nr = round_key w 0). { unfold dkey. rewrite Nat.eqb_refl, orb_true_r. f_equal. lia. }
  rewrite E0, E1. unfold iSS. f_equal. f_equal. f_equal.
  assert (ON := HO nr ltac:(lia)).
  rewrite dfold; [|intros r Hr; apply in_seq in Hr; split; [lia|apply HO; lia]|apply xorl_ok; auto].
  rewrite rev_seq. f_equal. apply map_ext_in. intros i Hi. apply in_seq in Hi. lia.
Qed.
