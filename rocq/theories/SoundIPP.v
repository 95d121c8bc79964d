(** * Rounds of the inner-product argument: few challenges turn an unopenable point into an openable one *)
From Verif Require Import SoundSpec SoundCount UtilProofs IPPSpec IPPProofs IPPSound.
Local Open Scope F_scope.

Section Rounds.
  Context {F : Field} {V : VSpace F}.
  Add Field FFrnd : (f_th F).

  (** one round: the point and the folded generators *)
  Definition iround (st : V * list V * list V) (e : V * V * F) : V * list V * list V :=
    let '(P, G, H) := st in
    let '(L, R, u) := e in
    let n := (length G / 2)%nat in
    (vadd (vadd P (vsmul (u * u) L)) (vsmul (inv_or_zero u * inv_or_zero u) R),
     fold_points n (fun _ => inv_or_zero u) (fun _ => u) (firstn n G) (skipn n G),
     fold_points n (fun _ => u) (fun _ => inv_or_zero u) (firstn n H) (skipn n H)).

  Variables (k : nat) (Q P : V) (G H : list V).
  Hypotheses (LG : length G = (2 ^ k)%nat) (LH : length H = (2 ^ k)%nat) (Hind : ~ nontrivial_relation Q G H).

  (* vocabulary of specifications and proofs, no code modelled *)
  Definition istate (h : list (V * V * F)) := fold_left iround h (P, G, H).
  (* vocabulary of specifications and proofs, no code modelled *)
  Definition iopen (h : list (V * V * F)) : Prop := has_opening Q (snd (fst (istate h))) (snd (istate h)) (fst (fst (istate h))).
  (* vocabulary of specifications and proofs, no code modelled *)
  Definition nz_hist (h : list (V * V * F)) : Prop := Forall (fun e => snd e <> 0) h.
  (* vocabulary of specifications and proofs, no code modelled *)
  Definition ibad (h : list (V * V * F)) (L R : V) (u : F) : Prop :=
    u = 0 \/ (nz_hist h /\ (length h < k)%nat /\ ~ iopen h /\ iopen (h ++ [(L, R, u)])).

  Lemma istate_snoc h e : istate (h ++ [e]) = iround (istate h) e.
  Proof. unfold istate. rewrite fold_left_app. reflexivity. Qed.

  Lemma istate_inv h : nz_hist h -> (length h <= k)%nat ->
    length (snd (fst (istate h))) = (2 ^ (k - length h))%nat /\ length (snd (istate h)) = (2 ^ (k - length h))%nat /\
    ~ nontrivial_relation Q (snd (fst (istate h))) (snd (istate h)).
  Proof.
    induction h as [|[[L R] u] h IH] using rev_ind; intros Hnz Hk.
    - unfold istate. cbn [fold_left fst snd length]. rewrite Nat.sub_0_r. auto.
    - apply Forall_app in Hnz as [Hnz Hu]. inversion Hu as [|? ? Hu0 _]; subst. cbn [snd] in Hu0.
      rewrite app_length in Hk. cbn [length] in Hk. destruct (IH Hnz ltac:(lia)) as (I1 & I2 & I3).
      rewrite istate_snoc. destruct (istate h) as [[P' G'] H']. cbn [fst snd] in I1, I2, I3. cbn [iround fst snd].
      rewrite !length_fold_points, app_length. cbn [length].
      assert (Hp : (2 ^ (k - length h) = 2 * 2 ^ (k - (length h + 1)))%nat).
      { replace (k - length h)%nat with (S (k - (length h + 1))) by lia. apply Nat.pow_succ_r'. }
      set (n := (2 ^ (k - (length h + 1)))%nat) in *. rewrite I1, Hp, (Nat.mul_comm 2), Nat.div_mul by lia.
      split; [reflexivity|]. split; [reflexivity|]. intros Hr. apply I3.
      rewrite <- (firstn_skipn n G'), <- (firstn_skipn n H'). rewrite !inv_or_zero_inv in Hr by exact Hu0.
      apply (relation_lift u Q _ _ _ _ n Hu0) in Hr; [exact Hr| | | |]; rewrite ?firstn_length, ?skipn_length; lia.
  Qed.

  Lemma has_opening_choice (Q' : V) (G' H' : F -> list V) (P' : F -> V) (us : list F) :
    Forall (fun u => has_opening Q' (G' u) (H' u) (P' u)) us ->
    exists a b : F -> list F, forall u, In u us -> length (a u) = length (G' u) /\ length (b u) = length (H' u) /\ P' u = pcom Q' (G' u) (H' u) (a u) (b u).
  Proof.
    induction us as [|v us IH]; intros Hf.
    - exists (fun _ => []), (fun _ => []). intros u [].
    - inversion Hf as [|? ? Ho Hf']; subst. destruct (IH Hf') as (a & b & Hab). destruct Ho as (a0 & b0 & H1 & H2 & H3).
      exists (fun u => if feqb u v then a0 else a u), (fun u => if feqb u v then b0 else b u). intros u Hu.
      destruct (feqb u v) eqn:E.
      + apply feqb_true in E. subst u. auto.
      + apply feqb_false in E. destruct Hu as [Hu|Hu]; [congruence|]. apply Hab. exact Hu.
  Qed.

  Lemma ibad_few h L R : at_most 7 (ibad h L R).
  Proof.
    apply at_most_or_eq. intros l Hnd Hl. destruct (Nat.le_gt_cases (length l) 6) as [|H7]; [assumption|exfalso].
    destruct (four_squares _ l Hnd Hl) as (u1 & u2 & u3 & u4 & Hf & Hsq); [lia|].
    assert (Hh : nz_hist h /\ (length h < k)%nat /\ ~ iopen h).
    { inversion Hf as [|? ? (_ & A & B & C & _) _]; subst. auto. }
    destruct Hh as (Hh1 & Hh2 & Hh3). apply Hh3.
    destruct (istate_inv h Hh1 ltac:(lia)) as (I1 & I2 & I3).
    unfold iopen. destruct (istate h) as [[P' G'] H'] eqn:Es. cbn [fst snd] in I1, I2, I3 |- *.
    assert (Hp : (2 ^ (k - length h) = 2 * 2 ^ (k - (length h + 1)))%nat).
    { replace (k - length h)%nat with (S (k - (length h + 1))) by lia. apply Nat.pow_succ_r'. }
    set (n := (2 ^ (k - (length h + 1)))%nat) in *.
    assert (Hn : (length G' / 2 = n)%nat) by (rewrite I1, Hp, (Nat.mul_comm 2), Nat.div_mul by lia; reflexivity).
    assert (Hnz4 : Forall (fun u => u <> 0) [u1; u2; u3; u4]) by (eapply Forall_impl; [|exact Hf]; intros a [Ha _]; exact Ha).
    destruct (has_opening_choice Q (fun u => fold_points n (fun _ => finv u) (fun _ => u) (firstn n G') (skipn n G'))
      (fun u => fold_points n (fun _ => u) (fun _ => finv u) (firstn n H') (skipn n H'))
      (fun u => vadd (vadd P' (vsmul (u * u) L)) (vsmul (finv u * finv u) R)) [u1; u2; u3; u4]) as (a & b & Hab).
    { eapply Forall_impl; [|exact Hf]. intros u (Hu & _ & _ & _ & Ho). unfold iopen in Ho. rewrite istate_snoc, Es in Ho.
      cbn [iround fst snd] in Ho. rewrite Hn, (inv_or_zero_inv u Hu) in Ho. exact Ho. }
    rewrite <- (firstn_skipn n G'), <- (firstn_skipn n H').
    destruct (step n Q P' L R (firstn n G') (skipn n G') (firstn n H') (skipn n H')
       ltac:(rewrite firstn_length; lia) ltac:(rewrite skipn_length; lia) ltac:(rewrite firstn_length; lia) ltac:(rewrite skipn_length; lia)
       u1 u2 u3 u4 Hnz4 Hsq a b) as [Ho|Hr].
    - intros u Hu. specialize (Hab u Hu). rewrite !length_fold_points in Hab. exact Hab.
    - exact Ho.
    - exfalso. apply I3. rewrite !firstn_skipn in Hr. exact Hr.
  Qed.

  Lemma rounds_open us : forall Ls Rs h a b, nz_hist h -> (length h + length us = k)%nat -> length Ls = length us -> length Rs = length us ->
    avoids ibad h Ls Rs us ->
    fst (fst (istate h)) = expected us Ls Rs a b Q (snd (fst (istate h))) (snd (istate h)) -> ~ ~ iopen h.
  Proof.
    induction us as [|u us IH]; intros [|L Ls] [|R Rs] h a b Hnz Hk HL HR Hav He Hn; try discriminate.
    - apply Hn. cbn [length] in Hk. destruct (istate_inv h Hnz ltac:(lia)) as (I1 & I2 & _).
      unfold iopen. destruct (istate h) as [[P' G'] H']. cbn [fst snd] in *.
      replace (k - length h)%nat with 0%nat in I1, I2 by lia. cbn in I1, I2.
      destruct G' as [|g [|]]; try discriminate. destruct H' as [|hh [|]]; try discriminate.
      exists [a], [b]. split; [reflexivity|]. split; [reflexivity|]. rewrite He. unfold expected, pcom. cbn. vring.
    - cbn [avoids] in Hav. destruct Hav as [Hb Hav]. cbn [length] in Hk, HL, HR.
      assert (Hu : u <> 0) by (intros ->; apply Hb; left; reflexivity).
      apply (IH Ls Rs (h ++ [(L, R, u)]) a b); try lia.
      + apply Forall_app. split; [exact Hnz|]. constructor; [exact Hu|constructor].
      + rewrite app_length. cbn [length]. lia.
      + exact Hav.
      + destruct (istate_inv h Hnz ltac:(lia)) as (I1 & I2 & _). rewrite istate_snoc.
        destruct (istate h) as [[P' G'] H']. cbn [iround fst snd] in *.
        assert (Hp : (2 ^ (k - length h) = 2 * 2 ^ length us)%nat).
        { replace (k - length h)%nat with (S (length us)) by lia. apply Nat.pow_succ_r'. }
        set (n := (2 ^ length us)%nat) in *. rewrite I1, Hp, (Nat.mul_comm 2), Nat.div_mul by lia.
        rewrite <- (firstn_skipn n G'), <- (firstn_skipn n H') in He.
        rewrite (expected_fold u us L Ls R Rs a b Q _ _ _ _ n eq_refl) in He by (rewrite ?firstn_length, ?skipn_length; lia).
        rewrite He. vring.
      + intros Ho. apply Hb. right. split; [exact Hnz|]. split; [lia|]. split; [exact Hn|exact Ho].
  Qed.
End Rounds.
