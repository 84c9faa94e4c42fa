(* On a finite set of blocks a left inverse is a right inverse. *)
From Verif.Base Require Import Prelude.

Fixpoint all_blocks (n : nat) : list (list Z) :=
  match n with
  | O => [[]]
  | S m => flat_map (fun b => map (cons b) (all_blocks m)) (zseq 0 256)
  end.
Lemma all_blocks_in n : forall s, bytes s /\ length s = n <-> In s (all_blocks n).
Proof.
  induction n as [|n IH]; intros s; cbn [all_blocks].
  - split; [intros [_ L]; destruct s; [left; reflexivity|discriminate]|]. intros [<-|[]]. split; [constructor|reflexivity].
  - rewrite in_flat_map. split.
    + intros [H L]. destruct s as [|b s]; [discriminate|]. inversion H as [|? ? Hb Hs]; subst.
      exists b. split; [apply zseq_in; unfold byte in Hb; lia|]. apply in_map. apply IH. split; auto.
    + intros (b & Hb & Hs). apply in_map_iff in Hs. destruct Hs as (t & <- & Ht). apply IH in Ht. destruct Ht as [H L].
      apply zseq_in in Hb. split; [constructor; auto; unfold byte; lia|cbn [length]; lia].
Qed.
Lemma finite_right_inverse n (f g : list Z -> list Z) :
  (forall x, bytes x -> length x = n -> bytes (f x) /\ length (f x) = n) ->
  (forall x, bytes x -> length x = n -> g (f x) = x) ->
  forall y, bytes y -> length y = n -> f (g y) = y.
Proof.
  intros Hf Hg y Hy Ly.
  assert (ND : NoDup (nodup (list_eq_dec Z.eq_dec) (all_blocks n))) by apply NoDup_nodup.
  set (l := nodup (list_eq_dec Z.eq_dec) (all_blocks n)) in *.
  assert (IN : forall s, bytes s /\ length s = n <-> In s l) by (intros s; unfold l; rewrite nodup_In; apply all_blocks_in).
  assert (INJ : NoDup (map f l)).
  { clear Hy Ly y. assert (G : forall k, incl k l -> NoDup k -> NoDup (map f k)).
    { induction k as [|a k IHk]; intros Hi Hn; cbn [map]; [constructor|]. inversion Hn as [|? ? Ha Hk]; subst. constructor.
      - intros Hc. apply in_map_iff in Hc. destruct Hc as (b & Eb & Hb). apply Ha.
        destruct (proj2 (IN a) (Hi a (or_introl eq_refl))) as [A1 A2]. destruct (proj2 (IN b) (Hi b (or_intror Hb))) as [B1 B2].
        rewrite <- (Hg a A1 A2), <- Eb, Hg; auto.
      - apply IHk; auto. intros z Hz. apply Hi. right. exact Hz. }
    apply G; auto. apply incl_refl. }
  assert (IC : incl (map f l) l).
  { intros z Hz. apply in_map_iff in Hz. destruct Hz as (x & <- & Hx). apply IN in Hx. apply IN. apply Hf; apply Hx. }
  assert (IC2 : incl l (map f l)) by (apply NoDup_length_incl; auto; rewrite map_length; lia).
  assert (Hin : In y (map f l)) by (apply IC2, IN; auto).
  apply in_map_iff in Hin. destruct Hin as (x & <- & Hx). apply IN in Hx. rewrite Hg; apply Hx || reflexivity.
Qed.
