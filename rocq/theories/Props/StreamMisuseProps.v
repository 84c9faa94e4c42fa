(* C88: misuse of cipher streams is refused *)
From Verif.Base Require Import Prelude.
From Verif.Model Require Import Bio Util Block Encoding Modes CipherStream.
From Verif.Proof Require Import BlockProof BlockModes StreamOpen StreamMisuse.
From Verif.Props Require Import ModesProps StreamApiProps.

(* after any sequence of calls: only an encrypting AEAD stream gives a tag, and only a
   decrypting one takes a tag *)
Theorem C88_direction : forall ci mode enc key iv s l s', cipher_stream_init ci mode enc key iv = Some s -> steps s l s' ->
  (enc = false \/ is_aead mode = false -> cipher_stream_get_tag s' = None) /\
  (enc = true \/ is_aead mode = false -> forall tag, cipher_stream_set_tag s' tag = Fail).
Proof.
  intros ci mode enc key iv s l s' HI HS. destruct (init_shape _ _ _ _ _ _ HI) as (E & T & _). destruct (steps_keep _ _ _ HS) as (E' & T' & _). rewrite E in E'. rewrite T in T'. split.
  - intros H. unfold cipher_stream_get_tag. rewrite E', T'. destruct H as [->| ->]; [rewrite orb_true_r|]; reflexivity.
  - intros H tag. unfold cipher_stream_set_tag. rewrite E', T'. destruct enc; [reflexivity|]. destruct H as [H|H]; [discriminate|]. destruct mode; try discriminate H; reflexivity.
Qed.
(* no tag before the stream is finished *)
Theorem C88_tag_after_final : forall ci mode enc key iv s l s' tag, cipher_stream_init ci mode enc key iv = Some s -> steps s l s' ->
  cipher_stream_get_tag s' = Some tag -> In Final l /\ tag <> [].
Proof.
  intros ci mode enc key iv s l s' tag HI HS HG. destruct (init_shape _ _ _ _ _ _ HI) as (E & T & TG & _). destruct (C88_direction _ _ _ _ _ _ _ _ HI HS) as (D & _).
  destruct enc; [|rewrite D in HG by auto; discriminate]. unfold cipher_stream_get_tag in HG. destruct (_ || _); [discriminate|]. destruct (s_tag s') as [|x y] eqn:Q; [discriminate|]. injection HG as <-.
  split; [|discriminate]. assert (DE : forall a b : call, {a = b} + {a <> b}) by (repeat decide equality). destruct (in_dec DE Final l) as [I|N]; [exact I|]. rewrite (enc_tag _ _ _ HS E TG N) in Q. discriminate.
Qed.
(* a decrypting AEAD stream never succeeds without a tag, and the tag that it compares is the
   last one given *)
Theorem C88_no_tag_no_success : forall ci mode key iv s l s' r o n s'', cipher_stream_init ci mode false key iv = Some s -> is_aead mode = true -> steps s l s' ->
  cipher_stream_final s' = Ok (r, o, n, s'') -> r <> 0 ->
  exists tag, last_tag l [] = tag /\ In (Tag tag) l /\ tag <> [] /\ cipher_mode_verify (s_cipher s') mode (s_mode s') tag = Ok r.
Proof.
  intros ci mode key iv s l s' r o n s'' HI HA HS HF HR. destruct (init_shape _ _ _ _ _ _ HI) as (E & T & TG & _). destruct (steps_keep _ _ _ HS) as (E' & T' & _). rewrite E in E'. rewrite T in T'.
  pose proof (dec_tag _ _ _ HS E) as LT. rewrite TG in LT. destruct (final_verify _ _ _ _ _ E' ltac:(rewrite T'; exact HA) HF) as [Z0|V]; [contradiction|]. rewrite T', LT in V.
  exists (last_tag l []). assert (NE : last_tag l [] <> []) by (intros Q; rewrite Q in V; cbv [cipher_mode_verify length Nat.eqb orb] in V; congruence).
  destruct (last_tag_in l []) as [A|A]; [contradiction|]. auto.
Qed.
(* padding can be switched in the four modes that pad only, and no longer once a stream with
   padding on that looks ahead (decryption, ciphertext stealing) has been given data *)
Theorem C88_padding_locked : forall ci B mode enc key iv s l1 i l2 s' b, family ci B -> cipher_stream_init ci mode enc key iv = Some s -> is_pad mode && negb enc || is_cts mode = true ->
  steps s (l1 ++ Update i :: l2) s' -> last_pad l1 true = true -> i <> [] -> cipher_stream_set_padding s' b = None.
Proof.
  intros ci B mode enc key iv s l1 i l2 s' b HF HI HM HS HP Hi. destruct (init_shape _ _ _ _ _ _ HI) as (E & T & _ & _ & _ & U & k & HC).
  assert (HB : (0 < s_bsize s)%nat) by (unfold s_bsize; destruct (HF _ _ HC) as (K & _); pose proof (BlockModes.size_pos _ K); lia).
  assert (SD : negb (s_encrypt s) || is_cts (s_type s) = true) by (rewrite E, T; destruct enc, mode; try discriminate HM; reflexivity).
  assert (ST : is_stream (s_type s) = false) by (rewrite T; destruct enc, mode; try discriminate HM; reflexivity).
  change (Update i :: l2) with ([Update i] ++ l2) in HS. destruct (steps_app _ _ _ _ HS) as (s1 & R1 & R2). destruct (steps_app _ _ _ _ R2) as (s2 & R3 & R4).
  pose proof (unpad_run _ _ _ R1 SD) as U1. rewrite U, HM, HP in U1. destruct (steps_keep _ _ _ R1) as (E1 & T1 & C1). destruct (steps_keep _ _ _ R3) as (E2 & T2 & C2).
  inversion R3 as [Q|l3 s3 cl s4 A C Q]. apply (app_inj_tail l3 []) in Q. destruct Q as [-> ->]. inversion A as [|l4 ? ? ? ? ? Q2]; [|destruct l4; discriminate]. subst s3 s4. inversion C as [i' o n s3 H| | | | | |]; subst.
  destruct (update_keeps _ _ _ _ _ H) as (_ & _ & U2 & K).
  assert (S2 : sound s2) by (intros _; rewrite E2, T2, E1, T1; exact SD).
  assert (L2 : locked s2). { split; [congruence|]. apply K; [congruence|exact U1|unfold s_bsize in *; congruence|left; exact Hi]. }
  destruct (locked_run _ _ _ R4 S2) as (S' & L'); [congruence|unfold s_bsize in *; congruence|exact L2|]. exact (locked_pad _ _ S' L').
Qed.
Theorem C88_padding_modes : forall ci mode enc key iv s l s', cipher_stream_init ci mode enc key iv = Some s -> steps s l s' ->
  (is_pad mode = false -> is_cts mode = false -> forall b, cipher_stream_set_padding s' b = None) /\
  (is_pad mode = true -> enc = true -> forall b, cipher_stream_set_padding s' b <> None).
Proof.
  intros ci mode enc key iv s l s' HI HS. destruct (init_shape _ _ _ _ _ _ HI) as (E & T & _). destruct (steps_keep _ _ _ HS) as (E' & T' & _). unfold cipher_stream_set_padding. rewrite E', T', E, T. split.
  - intros -> -> b. reflexivity.
  - intros HP -> b. destruct mode; discriminate.
Qed.

Example C88_cbc_ex :
  let key := map Z.of_nat (seq 1 8) in let iv := map Z.of_nat (seq 50 8) in
  match cipher_stream_init (toys 8) CBC false key iv with
  | Some s =>
    match cipher_stream_update s [1; 2; 3], cipher_stream_set_padding s false with
    | Ok (_, _, s1), Some s2 =>
      cipher_stream_set_padding s1 false = None /\
      (* with padding off, whole blocks leave no trace: padding can be switched on again *)
      match cipher_stream_update s2 key with Ok (_, _, s3) => cipher_stream_set_padding s3 true <> None | _ => False end
    | _, _ => False
    end
  | None => False
  end.
Proof. vm_compute. split; [reflexivity|discriminate]. Qed.
Example C88_eax_ex :
  let key := map Z.of_nat (seq 1 16) in let iv := map Z.of_nat (seq 50 12) in
  match cipher_stream_init (toys 16) EAX true key iv, cipher_stream_init (toys 16) EAX false key iv with
  | Some e, Some d =>
    match cipher_stream_update e [1; 2; 3] with
    | Ok (c, _, e1) =>
      cipher_stream_get_tag e1 = None /\
      match cipher_stream_final e1, cipher_stream_update d c with
      | Ok (_, _, _, e2), Ok (m, _, d1) =>
        match cipher_stream_get_tag e2, cipher_stream_final d1 with
        | Some t, Ok (r, _, _, _) =>
          m = [1; 2; 3] /\ r = 0 /\ cipher_stream_set_tag e2 t = Fail /\
          match cipher_stream_set_tag d1 t with
          | Ok d2 => cipher_stream_get_tag d2 = None /\ match cipher_stream_final d2 with Ok (r, _, _, _) => r = 1 | _ => False end
          | _ => False
          end
        | _, _ => False
        end
      | _, _ => False
      end
    | _ => False
    end
  | _, _ => False
  end.
Proof. vm_compute. repeat split; reflexivity. Qed.

(* the axioms of every theorem above, listed at once *)
Definition StreamMisuseProps_all := (@C88_direction, @C88_tag_after_final, @C88_no_tag_no_success, @C88_padding_locked, @C88_padding_modes).
Print Assumptions StreamMisuseProps_all.
