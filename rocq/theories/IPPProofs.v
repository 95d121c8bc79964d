(** * The inner-product argument: scalars, completeness, special soundness *)

From Verif Require Export IPPSpec UtilProofs.
From Coq Require Import Lia.
Local Open Scope F_scope.

Section Scalars.
  Context {F : Field}.
  Add Field FFs : (f_th F).
  Implicit Types (us : list F).

  Lemma inv_or_zero_sq (u : F) : inv_or_zero u * (u * u) = u.
  Proof.
    unfold inv_or_zero. destruct (feqb_spec F u 0) as [->|Hu]; [ring|]. field. exact Hu.
  Qed.
  Lemma inv_or_zero_inv (u : F) : u <> 0 -> inv_or_zero u = finv u.
  Proof. intros H. unfold inv_or_zero. destruct (feqb_spec F u 0); [contradiction|reflexivity]. Qed.

  Lemma signed_product_bits us i j :
    (forall t, (t < length us)%nat -> Nat.testbit i t = Nat.testbit j t) ->
    signed_product us i = signed_product us j.
  Proof.
    induction us as [|u us IH]; intros H; cbn [signed_product]; [reflexivity|].
    cbn [length] in H. rewrite (H (length us)) by lia. f_equal. apply IH. intros t Ht. apply H. lia.
  Qed.

  Lemma sub_pow2_bits i t j : Nat.testbit i t = true ->
    Nat.testbit (i - 2 ^ t) j = if Nat.eqb t j then false else Nat.testbit i j.
  Proof.
    intros H. rewrite Nat.sub_nocarry_ldiff.
    - rewrite Nat.ldiff_spec, Nat.pow2_bits_eqb. destruct (Nat.eqb t j); cbn.
      + apply andb_false_r.
      + apply andb_true_r.
    - apply Nat.bits_inj. intros m. rewrite Nat.ldiff_spec, Nat.pow2_bits_eqb, Nat.bits_0.
      destruct (Nat.eqb_spec t m) as [->|]; cbn; [rewrite H; reflexivity|reflexivity].
  Qed.

  Lemma signed_product_clear us i t : (t < length us)%nat -> Nat.testbit i t = true ->
    signed_product us i =
    signed_product us (i - 2 ^ t) * nth (length us - 1 - t) (map (fun u => u * u) us) 0.
  Proof.
    induction us as [|u us IH]; cbn [length]; intros Ht Hb; [lia|]. cbn [signed_product map].
    rewrite (sub_pow2_bits i t (length us) Hb).
    destruct (Nat.eqb_spec t (length us)) as [->|Hne].
    - rewrite Hb. replace (S (length us) - 1 - length us)%nat with O by lia. cbn [nth].
      rewrite (signed_product_bits us i (i - 2 ^ length us)).
      + rewrite <- (inv_or_zero_sq u) at 1. ring.
      + intros t Hlt. rewrite sub_pow2_bits by assumption.
        destruct (Nat.eqb_spec (length us) t); [lia|reflexivity].
    - rewrite IH by (assumption || lia).
      replace (S (length us) - 1 - t)%nat with (S (length us - 1 - t)) by lia. cbn [nth]. ring.
  Qed.

  Lemma signed_product_0 us : signed_product us 0 = fold_left fmul (map inv_or_zero us) 1.
  Proof.
    assert (Hg : forall l (a : F), fold_left fmul l a = a * fold_left fmul l 1).
    { induction l as [|x l IH]; intros a; cbn; [ring|]. rewrite IH, (IH (1 * x)). ring. }
    induction us as [|u us IH]; cbn [signed_product map fold_left]; [reflexivity|].
    rewrite Nat.bits_0, Hg, IH. ring.
  Qed.

  Lemma s_fold us m : (S m <= 2 ^ length us)%nat ->
    fold_left (s_step (length us) (map (fun u => u * u) us)) (seq 1 m) [fold_left fmul (map inv_or_zero us) 1]
    = map (signed_product us) (seq 0 (S m)).
  Proof.
    induction m as [|m IH]; intros Hm.
    - cbn. rewrite signed_product_0. reflexivity.
    - replace (seq 1 (S m)) with (seq 1 m ++ [S m]) by (rewrite seq_S; reflexivity).
      rewrite fold_left_app, IH by lia. cbn [fold_left].
      rewrite (seq_S (S m)). cbn [Nat.add].
      rewrite map_app. cbn [map]. unfold s_step. f_equal. f_equal.
      pose proof (Nat.log2_spec (S m) ltac:(lia)) as [Hlo Hhi].
      pose proof (Nat.pow_nonzero 2 (Nat.log2 (S m)) ltac:(lia)).
      rewrite (nth_map_seq (signed_product us)) by lia.
      symmetry. apply signed_product_clear.
      + apply Nat.log2_lt_pow2; lia.
      + apply Nat.bit_log2. lia.
  Qed.

  Lemma s_vector_spec us :
    s_vector (length us) (2 ^ length us) (fold_left fmul (map inv_or_zero us) 1) (map (fun u => u * u) us)
    = map (signed_product us) (seq 0 (2 ^ length us)).
  Proof.
    unfold s_vector. pose proof (Nat.pow_nonzero 2 (length us) ltac:(lia)).
    rewrite s_fold by lia. do 2 f_equal. lia.
  Qed.

  (** the same vector by halves *)
  Fixpoint svec us : list F :=
    match us with
    | [] => [1]
    | u :: r => vscale (inv_or_zero u) (svec r) ++ vscale u (svec r)
    end.
  Lemma svec_length us : length (svec us) = (2 ^ length us)%nat.
  Proof.
    induction us as [|u us IH]; cbn [svec length]; [reflexivity|].
    rewrite app_length, !vscale_length, IH. cbn. lia.
  Qed.

  Lemma testbit_high_false i k : (i < 2 ^ k)%nat -> Nat.testbit i k = false.
  Proof.
    intros H. destruct (Nat.eq_dec i 0) as [->|]; [apply Nat.bits_0|].
    apply Nat.bits_above_log2. apply Nat.log2_lt_pow2; lia.
  Qed.
  Lemma testbit_add_pow2 i k t : (i < 2 ^ k)%nat ->
    Nat.testbit (2 ^ k + i) t = if Nat.eqb k t then true else Nat.testbit i t.
  Proof.
    intros Hi. assert (H0 : Nat.land (2 ^ k) i = O).
    { apply Nat.bits_inj. intros m. rewrite Nat.land_spec, Nat.pow2_bits_eqb, Nat.bits_0.
      destruct (Nat.eqb_spec k m) as [<-|]; cbn; [apply testbit_high_false; exact Hi|reflexivity]. }
    rewrite Nat.add_nocarry_lxor by exact H0. rewrite Nat.lxor_spec, Nat.pow2_bits_eqb.
    destruct (Nat.eqb_spec k t) as [<-|].
    - rewrite testbit_high_false by exact Hi. reflexivity.
    - destruct (Nat.testbit i t); reflexivity.
  Qed.

  Lemma svec_spec us : svec us = map (signed_product us) (seq 0 (2 ^ length us)).
  Proof.
    induction us as [|u us IH]; [reflexivity|]. cbn [svec length].
    replace (2 ^ S (length us))%nat with (2 ^ length us + 2 ^ length us)%nat by (cbn; lia).
    rewrite seq_app, map_app. cbn [Nat.add].
    unfold vscale. rewrite IH. rewrite !map_map. f_equal.
    - apply map_ext_in. intros i Hi. apply in_seq in Hi. cbn [signed_product].
      rewrite testbit_high_false by lia. reflexivity.
    - replace (seq (2 ^ length us) (2 ^ length us)) with (map (Nat.add (2 ^ length us)) (seq 0 (2 ^ length us))).
      2:{ assert (Hs : forall a b m, map (Nat.add a) (seq b m) = seq (a + b) m).
          { intros a b m'. revert b; induction m' as [|m' IHm]; intros b; cbn; [reflexivity|].
            rewrite IHm. f_equal. f_equal. lia. }
          rewrite Hs. f_equal. lia. }
      rewrite map_map. apply map_ext_in. intros i Hi. apply in_seq in Hi. cbn [signed_product].
      rewrite testbit_add_pow2, Nat.eqb_refl by lia. f_equal.
      apply signed_product_bits. intros t Ht. rewrite testbit_add_pow2 by lia.
      destruct (Nat.eqb_spec (length us) t); [lia|reflexivity].
  Qed.

  Lemma rev_svec u us : rev (svec (u :: us)) = vscale u (rev (svec us)) ++ vscale (inv_or_zero u) (rev (svec us)).
  Proof. cbn [svec]. rewrite rev_app_distr. unfold vscale. rewrite !map_rev. reflexivity. Qed.

  Lemma nth_svec us i : (i < 2 ^ length us)%nat -> nth i (svec us) 0 = signed_product us i.
  Proof. intros H. rewrite svec_spec. apply (nth_map_seq (signed_product us)). exact H. Qed.

  Lemma svec_inverse us i : Forall (fun u => u <> 0) us -> (i < 2 ^ length us)%nat ->
    nth i (svec us) 0 * nth (2 ^ length us - 1 - i) (svec us) 0 = 1.
  Proof.
    intros Hus; revert i; induction Hus as [|u us Hu Hus IH]; intros i Hi.
    - cbn in Hi. assert (i = O) by lia. subst. cbn. ring.
    - cbn [length] in *. replace (2 ^ S (length us))%nat with (2 ^ length us + 2 ^ length us)%nat in * by (cbn; lia).
      cbn [svec]. rewrite !nth_app0, !nth_vscale, !vscale_length, svec_length.
      destruct (Nat.ltb_spec i (2 ^ length us));
      destruct (Nat.ltb_spec (2 ^ length us + 2 ^ length us - 1 - i) (2 ^ length us)); try lia.
      + replace (2 ^ length us + 2 ^ length us - 1 - i - 2 ^ length us)%nat with (2 ^ length us - 1 - i)%nat by lia.
        specialize (IH i ltac:(lia)). rewrite inv_or_zero_inv by exact Hu.
        transitivity (finv u * u * (nth i (svec us) 0 * nth (2 ^ length us - 1 - i) (svec us) 0)); [ring|].
        rewrite IH, finv_l by exact Hu. ring.
      + specialize (IH (i - 2 ^ length us)%nat ltac:(lia)).
        replace (2 ^ length us - 1 - (i - 2 ^ length us))%nat with (2 ^ length us + 2 ^ length us - 1 - i)%nat in IH by lia.
        rewrite inv_or_zero_inv by exact Hu.
        transitivity (finv u * u * (nth (i - 2 ^ length us) (svec us) 0 * nth (2 ^ length us + 2 ^ length us - 1 - i) (svec us) 0)); [ring|].
        rewrite IH, finv_l by exact Hu. ring.
  Qed.
End Scalars.

Section Verify.
  Context {F : Field} {V : VSpace F}.
  Add Field FFv : (f_th F).
  Variable E : TrEnv V.
  Local Open Scope V_scope.
  Implicit Types (us : list F) (G H Ls Rs GL GR HL HR : list V) (P Q L R : V).

  Lemma msm_zipw_scaled (a : F) (f s : list F) G :
    msm (zipw (fun g si => (a * si * g)%F) f s) G = a ** msm s (scaled f G).
  Proof.
    revert s G; induction f as [|x f IH]; intros [|y s] [|g G]; cbn; try vring.
    fold (scaled f G). rewrite IH. vring.
  Qed.
  Lemma msm_zipw_mul (a f : list F) G : msm (zipw fmul a f) G = msm a (scaled f G).
  Proof.
    revert a G; induction f as [|x f IH]; intros [|y s] [|g G]; cbn; try vring; try reflexivity.
    fold (scaled f G). rewrite IH. vring.
  Qed.
  Lemma scaled_length (f : list F) G : length f = length G -> length (scaled f G) = length G.
  Proof. intros Hl. unfold scaled. rewrite zipw_length. lia. Qed.

  Lemma msm_map_opp (cs : list F) Ls : msm (map fopp cs) Ls = - msm cs Ls.
  Proof. revert Ls; induction cs as [|c cs IH]; intros [|p Ls]; cbn; try vring. rewrite IH. vring. Qed.

  (** what [verify] compares with [P] *)
  Definition expected us Ls Rs (a b : F) Q G H : V :=
    ((a * b)%F ** Q + a ** msm (svec us) G + b ** msm (rev (svec us)) H)
    - msm (map (fun u => (u * u)%F) us) Ls
    - msm (map (fun u => (inv_or_zero u * inv_or_zero u)%F) us) Rs.

  Lemma challenges_length Ls Rs tr us tr' : ipp_challenges E tr Ls Rs = Some (Ok (us, tr')) ->
    length us = Nat.min (length Ls) (length Rs).
  Proof.
    revert Rs tr us; induction Ls as [|L Ls IH]; intros [|R Rs] tr us H; cbn in H;
      try (injection H as <- <-; reflexivity).
    destruct (validate_and_append_point E tr "L" L) as [tr1|]; [|discriminate].
    destruct (validate_and_append_point E tr1 "R" R) as [tr2|]; [|discriminate].
    destruct (challenge_scalar E tr2 "u") as [[u tr3]|]; [|discriminate]. cbn in H.
    destruct (ipp_challenges E tr3 Ls Rs) as [[[us1 tr4]|]|] eqn:Hc; try discriminate.
    cbn in H. injection H as <- <-. cbn. rewrite (IH _ _ _ Hc). reflexivity.
  Qed.

  Lemma verification_scalars_spec p n tr r :
    ipp_verification_scalars E p n tr = Some (Ok r) <->
    exists us tr', ipp_challenges E (innerproduct_domain_sep tr (N.of_nat n)) (ipp_L p) (ipp_R p) = Some (Ok (us, tr')) /\
      (length (ipp_L p) < 32)%nat /\ n = (2 ^ length (ipp_L p))%nat /\ length us = length (ipp_L p) /\
      r = (map (fun u => (u * u)%F) us, map (fun u => (inv_or_zero u * inv_or_zero u)%F) us, svec us, tr').
  Proof.
    unfold ipp_verification_scalars. split.
    - destruct (Nat.leb_spec 32 (length (ipp_L p))); [discriminate|].
      destruct (Nat.eqb_spec n (2 ^ length (ipp_L p))) as [Hn|]; [|discriminate]. cbn [negb].
      destruct (ipp_challenges _ _ _ _) as [[[us tr']|]|] eqn:Hc; try discriminate. cbn [opt_bind]. unfold guard.
      destruct (Nat.leb_spec (length (ipp_L p)) (length us)); [|discriminate].
      intros Heq. apply Some_inj in Heq.
      pose proof (challenges_length _ _ _ _ _ Hc) as Hl.
      assert (Hlu : length us = length (ipp_L p)) by lia.
      exists us, tr'. repeat (split; [first [reflexivity | assumption | lia]|]).
      injection Heq as <-. rewrite map_map, Hn, <- Hlu, s_vector_spec, svec_spec. reflexivity.
    - intros (us & tr' & Hc & Hlt & Hn & Hlu & ->).
      destruct (Nat.leb_spec 32 (length (ipp_L p))); [lia|].
      destruct (Nat.eqb_spec n (2 ^ length (ipp_L p))); [|contradiction]. cbn [negb].
      rewrite Hc. cbn [opt_bind]. unfold guard.
      destruct (Nat.leb_spec (length (ipp_L p)) (length us)); [|lia].
      rewrite map_map, Hn, <- Hlu, s_vector_spec, svec_spec. reflexivity.
  Qed.

  Lemma verify_spec us tr tr' Ls Rs a b n Gf Hf P Q G H :
    ipp_challenges E (innerproduct_domain_sep tr (N.of_nat n)) Ls Rs = Some (Ok (us, tr')) ->
    (length Ls < 32)%nat -> n = (2 ^ length Ls)%nat -> length us = length Ls ->
    length Rs = length Ls ->
    length G = n -> length H = n -> length Gf = n -> length Hf = n ->
    ipp_verify E (mkIPP Ls Rs a b) n tr Gf Hf P Q G H =
    Some (if veqb (expected us Ls Rs a b Q (scaled Gf G) (scaled Hf H)) P then Ok tt else Err VerificationError).
  Proof.
    intros Hc Hlt Hn Hlu HlR HG HH HGf HHf. unfold ipp_verify.
    rewrite (proj2 (verification_scalars_spec (mkIPP Ls Rs a b) n tr _)
               (ex_intro _ us (ex_intro _ tr' (conj Hc (conj Hlt (conj Hn (conj Hlu eq_refl))))))).
    cbn [opt_bind]. cbn [ipp_a ipp_b ipp_L ipp_R].
    assert (Hsl : length (svec us) = n) by (rewrite svec_length; congruence).
    replace (msm ((a * b)%F :: _) _) with (expected us Ls Rs a b Q (scaled Gf G) (scaled Hf H)).
    { destruct (veqb _ P); reflexivity. }
    cbn [msm]. rewrite firstn_all2 by (rewrite zipw_length; lia).
    rewrite !msm_app.
    - rewrite !msm_zipw_scaled, !msm_map_opp. unfold expected. vring.
    - rewrite !map_length; congruence.
    - rewrite zipw_length, rev_length. lia.
    - rewrite zipw_length. lia.
  Qed.

  Lemma length_fold_points n (f g : nat -> F) (PL PR : list V) : length (fold_points (V:=V) n f g PL PR) = n.
  Proof. unfold fold_points. rewrite map_length, seq_length. reflexivity. Qed.
  Lemma nth_fold_points n (f g : nat -> F) (PL PR : list V) i : (i < n)%nat ->
    nth i (fold_points n f g PL PR) 0 = f i ** nth i PL 0 + g i ** nth i PR 0.
  Proof.
    intros Hi. unfold fold_points.
    rewrite (nth_map_seq (fun i => msm [f i; g i] [nth i PL v0; nth i PR v0])) by exact Hi. cbn. vring.
  Qed.
  Lemma length_fold_scalars n c d (xL xR : list F) : length (fold_scalars n c d xL xR) = n.
  Proof. unfold fold_scalars. rewrite map_length, seq_length. reflexivity. Qed.
  Lemma nth_fold_scalars n c d (xL xR : list F) i : (i < n)%nat ->
    nth i (fold_scalars n c d xL xR) 0%F = (nth i xL 0 * c + d * nth i xR 0)%F.
  Proof. intros Hi. unfold fold_scalars. apply (nth_map_seq (fun i => (nth i xL 0 * c + d * nth i xR 0)%F)). exact Hi. Qed.

  Lemma msm_fold_points (s : list F) n c d GL GR : length s = n -> length GL = n -> length GR = n ->
    msm s (fold_points n (fun _ => c) (fun _ => d) GL GR) = c ** msm s GL + d ** msm s GR.
  Proof.
    intros Hs HL HR.
    rewrite (msm_gsum s (fold_points _ _ _ _ _) n), (msm_gsum s GL n), (msm_gsum s GR n) by lia.
    rewrite <- !gsum_smul, <- gsum_add. apply gsum_ext. intros i Hi.
    rewrite nth_fold_points by exact Hi. vring.
  Qed.

  (** folding one challenge moves one round from the check into the statement *)
  Lemma expected_fold u us L Ls R Rs a b Q GL GR HL HR n :
    n = (2 ^ length us)%nat -> length GL = n -> length GR = n -> length HL = n -> length HR = n ->
    expected (u :: us) (L :: Ls) (R :: Rs) a b Q (GL ++ GR) (HL ++ HR) =
    expected us Ls Rs a b Q (fold_points n (fun _ => inv_or_zero u) (fun _ => u) GL GR)
                            (fold_points n (fun _ => u) (fun _ => inv_or_zero u) HL HR)
    - (u * u)%F ** L - (inv_or_zero u * inv_or_zero u)%F ** R.
  Proof.
    intros Hn HGL HGR HHL HHR. unfold expected. rewrite rev_svec. cbn [svec map].
    rewrite !msm_app by (rewrite vscale_length, ?rev_length, svec_length; congruence).
    rewrite !msm_scale. rewrite !msm_fold_points by (rewrite ?rev_length, ?svec_length; congruence).
    cbn [msm]. vring.
  Qed.
End Verify.

Section Completeness.
  Context {F : Field} {V : VSpace F}.
  Add Field FFc : (f_th F).
  Variable E : TrEnv V.
  Local Open Scope V_scope.
  Implicit Types (us a b aL aR bL bR : list F) (G H Ls Rs GL GR HL HR : list V) (P Q L R : V) (u : F).

  (* vocabulary of specifications and proofs, no code modelled *)
  Definition pcom Q G H a b : V := msm a G + msm b H + ip a b ** Q.

  Lemma ip_fold n u aL aR bL bR : u <> 0%F ->
    length aL = n -> length aR = n -> length bL = n -> length bR = n ->
    ip (fold_scalars n u (finv u) aL aR) (fold_scalars n (finv u) u bL bR) =
    (ip aL bL + ip aR bR + u * u * ip aL bR + finv u * finv u * ip aR bL)%F.
  Proof.
    intros Hu HaL HaR HbL HbR.
    rewrite (ip_fsum (fold_scalars _ _ _ _ _) _ n) by (rewrite !length_fold_scalars; lia).
    rewrite (ip_fsum aL bL n), (ip_fsum aR bR n), (ip_fsum aL bR n), (ip_fsum aR bL n) by lia.
    rewrite <- !fsum_scale, <- !fsum_add. apply fsum_ext. intros i Hi.
    rewrite !nth_fold_scalars by exact Hi. field. exact Hu.
  Qed.
  Lemma msm_fold n (c d : F) aL aR GL GR : (c * d)%F = 1%F ->
    length aL = n -> length aR = n -> length GL = n -> length GR = n ->
    msm (fold_scalars n c d aL aR) (fold_points n (fun _ => d) (fun _ => c) GL GR) =
    msm aL GL + msm aR GR + (c * c)%F ** msm aL GR + (d * d)%F ** msm aR GL.
  Proof.
    intros Hcd HaL HaR HGL HGR.
    rewrite (msm_gsum (fold_scalars _ _ _ _ _) _ n) by (rewrite !length_fold_scalars; lia).
    rewrite (msm_gsum aL GL n), (msm_gsum aR GR n), (msm_gsum aL GR n), (msm_gsum aR GL n) by lia.
    rewrite <- !gsum_smul, <- !gsum_add. apply gsum_ext. intros i Hi.
    rewrite nth_fold_scalars, nth_fold_points by exact Hi.
    transitivity ((c * d)%F ** (nth i aL 0%F ** nth i GL 0) + (c * d)%F ** (nth i aR 0%F ** nth i GR 0) +
      (c * c)%F ** (nth i aL 0%F ** nth i GR 0) + (d * d)%F ** (nth i aR 0%F ** nth i GL 0)); [vring|].
    rewrite Hcd. vring.
  Qed.

  Lemma pcom_round n u Q GL GR HL HR aL aR bL bR : u <> 0%F ->
    length aL = n -> length aR = n -> length bL = n -> length bR = n ->
    length GL = n -> length GR = n -> length HL = n -> length HR = n ->
    pcom Q (fold_points n (fun _ => finv u) (fun _ => u) GL GR)
           (fold_points n (fun _ => u) (fun _ => finv u) HL HR)
           (fold_scalars n u (finv u) aL aR) (fold_scalars n (finv u) u bL bR) =
    pcom Q (GL ++ GR) (HL ++ HR) (aL ++ aR) (bL ++ bR)
    + (u * u)%F ** msm (aL ++ bR ++ [ip aL bR]) (GR ++ HL ++ [Q])
    + (finv u * finv u)%F ** msm (aR ++ bL ++ [ip aR bL]) (GL ++ HR ++ [Q]).
  Proof.
    intros. unfold pcom. rewrite ip_fold by assumption.
    rewrite !msm_fold by (first [assumption | apply finv_r; assumption | apply finv_l; assumption]).
    rewrite !msm_app by congruence. rewrite ip_app by congruence. cbn [msm]. vring.
  Qed.

  Lemma pow2_half k : (2 ^ S k / 2)%nat = (2 ^ k)%nat.
  Proof. rewrite Nat.pow_succ_r', Nat.mul_comm. apply Nat.div_mul. lia. Qed.
  Lemma pow2_ne1 k : (2 ^ S k)%nat <> 1%nat.
  Proof. rewrite Nat.pow_succ_r'. lia. Qed.

  Lemma loop_spec k : forall fuel tr Q G H a b Ls0 Rs0 p tr',
    length G = (2 ^ k)%nat -> length H = (2 ^ k)%nat -> length a = (2 ^ k)%nat -> length b = (2 ^ k)%nat ->
    ipp_loop E fuel (2 ^ k) tr Q G H a b Ls0 Rs0 = Some (p, tr') ->
    exists us Ls Rs (a0 b0 : F), p = mkIPP (Ls0 ++ Ls) (Rs0 ++ Rs) a0 b0 /\
      length us = k /\ length Ls = k /\ length Rs = k /\ Forall (fun u => u <> 0%F) us /\
      (Forall (fun L => L <> 0) Ls -> Forall (fun R => R <> 0) Rs ->
       ipp_challenges E tr Ls Rs = Some (Ok (us, tr'))) /\
      pcom Q G H a b = expected us Ls Rs a0 b0 Q G H.
  Proof.
    induction k as [|k IH]; intros fuel tr Q G H a b Ls0 Rs0 p tr' HG HH Ha Hb Hl.
    - cbn in HG, HH, Ha, Hb. destruct G as [|g [|]]; try discriminate. destruct H as [|h [|]]; try discriminate.
      destruct a as [|a0 [|]]; try discriminate. destruct b as [|b0 [|]]; try discriminate.
      destruct fuel; cbn in Hl; injection Hl as <- <-;
        exists [], [], [], a0, b0; rewrite !app_nil_r;
        (repeat split; try constructor); unfold pcom, expected; cbn; vring.
    - destruct fuel as [|fuel].
      { cbn [ipp_loop] in Hl. destruct (Nat.eqb_spec (2 ^ S k) 1) as [He|_]; [|discriminate].
        destruct (pow2_ne1 k He). }
      cbn [ipp_loop] in Hl. destruct (Nat.eqb_spec (2 ^ S k) 1) as [He|_]; [destruct (pow2_ne1 k He)|].
      rewrite pow2_half in Hl.
      set (n := (2 ^ k)%nat) in *.
      assert (Hn2 : (2 ^ S k)%nat = (n + n)%nat) by (rewrite Nat.pow_succ_r'; lia).
      rewrite Hn2 in HG, HH, Ha, Hb.
      assert (HaL : length (firstn n a) = n) by (rewrite firstn_length; lia).
      assert (HaR : length (skipn n a) = n) by (rewrite skipn_length; lia).
      assert (HbL : length (firstn n b) = n) by (rewrite firstn_length; lia).
      assert (HbR : length (skipn n b) = n) by (rewrite skipn_length; lia).
      assert (HGL : length (firstn n G) = n) by (rewrite firstn_length; lia).
      assert (HGR : length (skipn n G) = n) by (rewrite skipn_length; lia).
      assert (HHL : length (firstn n H) = n) by (rewrite firstn_length; lia).
      assert (HHR : length (skipn n H) = n) by (rewrite skipn_length; lia).
      unfold inner_product in Hl. rewrite HaL, HbR, HaR, HbL, !Nat.eqb_refl in Hl. cbn [opt_bind] in Hl.
      match type of Hl with context [challenge_scalar E ?t "u"] => set (tr1 := t) in * end.
      destruct (challenge_scalar E tr1 "u") as [[u tr2]|] eqn:Hch; [|discriminate]. cbn [opt_bind] in Hl.
      destruct (finv_opt u) as [ui|] eqn:Hui; [|discriminate]. cbn [opt_bind] in Hl.
      apply finv_opt_Some in Hui as [Hu ->].
      apply IH in Hl; try (rewrite ?length_fold_points, ?length_fold_scalars; reflexivity).
      destruct Hl as (us & Ls & Rs & a0 & b0 & -> & Hus & HLs & HRs & Hnz & Hc & Heq).
      eexists (u :: us), (_ :: Ls), (_ :: Rs), a0, b0.
      split; [rewrite <- !app_assoc; reflexivity|].
      split; [cbn; congruence|]. split; [cbn; congruence|]. split; [cbn; congruence|].
      split; [constructor; assumption|]. split.
      + intros HL HR. inversion HL as [|? ? HL1 HL2]; subst. inversion HR as [|? ? HR1 HR2]; subst.
        cbn [ipp_challenges]. unfold validate_and_append_point.
        rewrite (proj2 (veqb_false _ _) HL1), (proj2 (veqb_false _ _) HR1).
        fold tr1. rewrite Hch. cbn [opt_bind]. rewrite Hc by assumption. reflexivity.
      + rewrite pcom_round in Heq by assumption. rewrite !firstn_skipn in Heq.
        match goal with |- _ = expected (u :: us) (?L :: Ls) (?R :: Rs) _ _ _ _ _ =>
          pose proof (expected_fold u us L Ls R Rs a0 b0 Q (firstn n G) (skipn n G) (firstn n H) (skipn n H) n) as Hef end.
        rewrite !firstn_skipn in Hef. rewrite Hef by (assumption || (unfold n; congruence)).
        rewrite inv_or_zero_inv by exact Hu. rewrite <- Heq. vring.
  Qed.

  Lemma loop_total k : forall fuel tr Q G H a b Ls0 Rs0,
    (forall tr l, exists c tr', challenge_scalar E tr l = Some (c, tr') /\ c <> 0%F) ->
    length G = (2 ^ k)%nat -> length H = (2 ^ k)%nat -> length a = (2 ^ k)%nat -> length b = (2 ^ k)%nat ->
    (k <= fuel)%nat ->
    exists r, ipp_loop E fuel (2 ^ k) tr Q G H a b Ls0 Rs0 = Some r.
  Proof.
    induction k as [|k IH]; intros fuel tr Q G H a b Ls0 Rs0 Hch HG HH Ha Hb Hf.
    - cbn in HG, HH, Ha, Hb. destruct a as [|a0 [|]]; try discriminate. destruct b as [|b0 [|]]; try discriminate.
      destruct fuel; eexists; reflexivity.
    - destruct fuel as [|fuel]; [lia|].
      cbn [ipp_loop]. destruct (Nat.eqb_spec (2 ^ S k) 1) as [He|_]; [destruct (pow2_ne1 k He)|].
      rewrite pow2_half.
      set (n := (2 ^ k)%nat) in *.
      assert (Hn2 : (2 ^ S k)%nat = (n + n)%nat) by (rewrite Nat.pow_succ_r'; lia).
      rewrite Hn2 in HG, HH, Ha, Hb.
      unfold inner_product. rewrite !firstn_length, !skipn_length.
      replace (Nat.min n (length a)) with n by lia. replace (length b - n)%nat with n by lia.
      replace (Nat.min n (length b)) with n by lia. replace (length a - n)%nat with n by lia.
      rewrite Nat.eqb_refl. cbn [opt_bind].
      match goal with |- context [challenge_scalar E ?t "u"] => destruct (Hch t "u"%string) as (u & tr2 & -> & Hu) end.
      cbn [opt_bind]. unfold finv_opt. destruct (feqb_spec F u 0) as [|_]; [contradiction|]. cbn [opt_bind].
      apply IH; try assumption; try (rewrite ?length_fold_points, ?length_fold_scalars; reflexivity). lia.
  Qed.

  Lemma nth_scaled (f : list F) G i : length f = length G -> (i < length G)%nat ->
    nth i (scaled f G) 0 = nth i f 0%F ** nth i G 0.
  Proof. intros Hl Hi. unfold scaled. apply nth_zipw; lia. Qed.

  Lemma fold_points_scaled n (c d : F) (f : list F) G : length f = (n + n)%nat -> length G = (n + n)%nat ->
    fold_points n (fun i => (c * nth i f 0)%F) (fun i => (d * nth (n + i) f 0)%F) (firstn n G) (skipn n G) =
    fold_points n (fun _ => c) (fun _ => d) (firstn n (scaled f G)) (skipn n (scaled f G)).
  Proof.
    intros Hf HG. apply (list_ext_nth _ _ 0).
    - rewrite !length_fold_points. reflexivity.
    - rewrite length_fold_points. intros i Hi. rewrite !nth_fold_points by exact Hi.
      rewrite !nth_firstn, !nth_skipn. destruct (Nat.ltb_spec i n); [|lia].
      rewrite !nth_scaled by lia. vring.
  Qed.

  Lemma firstn_zipw {A B C} (f : A -> B -> C) n xs ys : firstn n (zipw f xs ys) = zipw f (firstn n xs) (firstn n ys).
  Proof. revert xs ys; induction n as [|n IH]; intros [|x xs] [|y ys]; cbn; auto. f_equal. apply IH. Qed.
  Lemma skipn_zipw {A B C} (f : A -> B -> C) n xs ys : skipn n (zipw f xs ys) = zipw f (skipn n xs) (skipn n ys).
  Proof.
    revert xs ys; induction n as [|n IH]; intros [|x xs] [|y ys]; cbn; auto.
    destruct (skipn n xs); reflexivity.
  Qed.

  Lemma create_loop tr Q Gf Hf G H a b :
    ipp_create E tr Q Gf Hf G H a b =
    guard (Nat.eqb (length H) (length G) && Nat.eqb (length a) (length G) && Nat.eqb (length b) (length G) &&
           Nat.eqb (length Gf) (length G) && Nat.eqb (length Hf) (length G) && is_power_of_two (length G))
      (ipp_loop E (if Nat.eqb (length G) 1 then 0 else S (length G / 2)) (length G) (innerproduct_domain_sep tr (N.of_nat (length G))) Q
         (scaled Gf G) (scaled Hf H) a b [] []).
  Proof.
    unfold ipp_create, guard.
    destruct (_ && is_power_of_two (length G)) eqn:Hg; [|reflexivity].
    rewrite !andb_true_iff, !Nat.eqb_eq in Hg. destruct Hg as (((((HH & Ha) & Hb) & HGf) & HHf) & Hp).
    apply is_power_of_two_spec in Hp as [k Hk].
    destruct (Nat.eqb_spec (length G) 1) as [H1|H1].
    - rewrite H1. reflexivity.
    - destruct k as [|k]; [cbn in Hk; contradiction|].
      rewrite Hk, pow2_half.
      set (n := (2 ^ k)%nat) in *.
      assert (Hn2 : (2 ^ S k)%nat = (n + n)%nat) by (rewrite Nat.pow_succ_r'; lia).
      rewrite !Hn2 in *.
      cbn [ipp_loop]. destruct (Nat.eqb_spec (n + n) 1) as [He|_]; [lia|].
      replace ((n + n) / 2)%nat with n by (rewrite <- Hn2; symmetry; apply pow2_half).
      unfold inner_product.
      destruct (Nat.eqb (length (firstn n a)) (length (skipn n b))); [cbn [opt_bind]|reflexivity].
      destruct (Nat.eqb (length (skipn n a)) (length (firstn n b))); [cbn [opt_bind]|reflexivity].
      assert (HaL : length (firstn n a) = n) by (rewrite firstn_length; lia).
      assert (HaR : length (skipn n a) = n) by (rewrite skipn_length; lia).
      assert (HbL : length (firstn n b) = n) by (rewrite firstn_length; lia).
      assert (HbR : length (skipn n b) = n) by (rewrite skipn_length; lia).
      assert (HGL : length (firstn n G) = n) by (rewrite firstn_length; lia).
      assert (HGR : length (skipn n G) = n) by (rewrite skipn_length; lia).
      assert (HHL : length (firstn n H) = n) by (rewrite firstn_length; lia).
      assert (HHR : length (skipn n H) = n) by (rewrite skipn_length; lia).
      assert (HfL : length (firstn n Gf) = n) by (rewrite firstn_length; lia).
      assert (HfR : length (skipn n Gf) = n) by (rewrite skipn_length; lia).
      assert (HhL : length (firstn n Hf) = n) by (rewrite firstn_length; lia).
      assert (HhR : length (skipn n Hf) = n) by (rewrite skipn_length; lia).
      assert (HsG : length (scaled Gf G) = (n + n)%nat) by (rewrite scaled_length; congruence).
      assert (HsH : length (scaled Hf H) = (n + n)%nat) by (rewrite scaled_length; congruence).
      assert (Hm : forall (x y : list F) (f g : list F) X Y c,
        length x = n -> length y = n -> length f = n -> length g = n -> length X = n -> length Y = n ->
        msm (zipw fmul x f ++ zipw fmul y g ++ [c]) (X ++ Y ++ [Q]) = msm (x ++ y ++ [c]) (scaled f X ++ scaled g Y ++ [Q])).
      { intros x y f g X Y c ? ? ? ? ? ?.
        rewrite !msm_app; rewrite ?zipw_length, ?scaled_length; try lia.
        rewrite !msm_zipw_mul. reflexivity. }
      rewrite !Hm by assumption.
      replace (scaled (skipn n Gf) (skipn n G)) with (skipn n (scaled Gf G)) by apply skipn_zipw.
      replace (scaled (firstn n Gf) (firstn n G)) with (firstn n (scaled Gf G)) by apply firstn_zipw.
      replace (scaled (skipn n Hf) (skipn n H)) with (skipn n (scaled Hf H)) by apply skipn_zipw.
      replace (scaled (firstn n Hf) (firstn n H)) with (firstn n (scaled Hf H)) by apply firstn_zipw.
      match goal with |- context [challenge_scalar E ?t "u"] => destruct (challenge_scalar E t "u") as [[u tr2]|] end;
        [cbn [opt_bind]|reflexivity].
      destruct (finv_opt u) as [ui|]; [cbn [opt_bind]|reflexivity].
      rewrite !fold_points_scaled by lia. reflexivity.
  Qed.

  Lemma ipp_create_spec tr Q Gf Hf G H a b p tr' :
    ipp_create E tr Q Gf Hf G H a b = Some (p, tr') ->
    exists k us, length G = (2 ^ k)%nat /\ length H = length G /\ length a = length G /\ length b = length G /\
      length Gf = length G /\ length Hf = length G /\
      length us = k /\ length (ipp_L p) = k /\ length (ipp_R p) = k /\ Forall (fun u => u <> 0%F) us /\
      (Forall (fun L => L <> 0) (ipp_L p) -> Forall (fun R => R <> 0) (ipp_R p) ->
       ipp_challenges E (innerproduct_domain_sep tr (N.of_nat (length G))) (ipp_L p) (ipp_R p) = Some (Ok (us, tr'))) /\
      ipp_statement Q Gf Hf G H a b =
      expected us (ipp_L p) (ipp_R p) (ipp_a p) (ipp_b p) Q (scaled Gf G) (scaled Hf H).
  Proof.
    rewrite create_loop. unfold guard.
    destruct (_ && is_power_of_two (length G)) eqn:Hg; [|discriminate].
    rewrite !andb_true_iff, !Nat.eqb_eq in Hg. destruct Hg as (((((HH & Ha) & Hb) & HGf) & HHf) & Hp).
    apply is_power_of_two_spec in Hp as [k Hk]. intros Hl. rewrite Hk in Hl.
    apply loop_spec in Hl; try (rewrite ?scaled_length; congruence).
    destruct Hl as (us & Ls & Rs & a0 & b0 & -> & Hus & HLs & HRs & Hnz & Hc & Heq).
    exists k, us. cbn [ipp_L ipp_R ipp_a ipp_b]. rewrite !app_nil_l.
    repeat (split; [congruence || assumption|]). split.
    - intros. rewrite Hk. apply Hc; assumption.
    - rewrite <- Heq. unfold ipp_statement, pcom. rewrite !msm_zipw_mul. reflexivity.
  Qed.

  Lemma ipp_complete tr Q Gf Hf G H a b p tr' :
    ipp_create E tr Q Gf Hf G H a b = Some (p, tr') ->
    (N.of_nat (length G) < 2 ^ 32)%N ->
    Forall (fun L => L <> 0) (ipp_L p) -> Forall (fun R => R <> 0) (ipp_R p) ->
    ipp_verify E p (length G) tr Gf Hf (ipp_statement Q Gf Hf G H a b) Q G H = Some (Ok tt).
  Proof.
    intros Hc H32 HL HR. apply ipp_create_spec in Hc
      as (k & us & Hk & HH & Ha & Hb & HGf & HHf & Hus & HLs & HRs & Hnz & Hch & Heq).
    destruct p as [Ls Rs a0 b0]. cbn [ipp_L ipp_R ipp_a ipp_b] in *.
    rewrite (verify_spec E us tr tr' Ls Rs a0 b0 (length G) Gf Hf _ Q G H); try congruence; try (apply Hch; assumption).
    - rewrite Heq, veqb_refl. reflexivity.
    - rewrite HLs. assert (2 ^ N.of_nat k < 2 ^ 32)%N as Hlt.
      { rewrite Hk in H32. rewrite Nat2N.inj_pow in H32. exact H32. }
      apply N.pow_lt_mono_r_iff in Hlt; lia.
  Qed.

  Lemma ipp_create_total tr Q Gf Hf G H a b k :
    (forall tr l, exists c tr', challenge_scalar E tr l = Some (c, tr') /\ c <> 0%F) ->
    length G = (2 ^ k)%nat -> length H = length G -> length a = length G -> length b = length G ->
    length Gf = length G -> length Hf = length G ->
    exists r, ipp_create E tr Q Gf Hf G H a b = Some r.
  Proof.
    intros Hch HG HH Ha Hb HGf HHf. rewrite create_loop. rewrite HH, Ha, Hb, HGf, HHf, !Nat.eqb_refl.
    rewrite (proj2 (is_power_of_two_spec (length G))) by (exists k; exact HG). cbn [andb guard].
    rewrite HG. apply loop_total; [exact Hch|..]; try (rewrite ?scaled_length; congruence).
    destruct k as [|k]; [cbn; lia|].
    destruct (Nat.eqb_spec (2 ^ S k) 1) as [He|_]; [destruct (pow2_ne1 k He)|].
    rewrite pow2_half. pose proof (Nat.pow_gt_lin_r 2 k ltac:(lia)). lia.
  Qed.
End Completeness.
