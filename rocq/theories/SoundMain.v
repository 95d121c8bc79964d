(** * From the two checks to the gates and the constraints *)
From Verif Require Import SoundSpec SoundCount UtilProofs CSProofs FlatProofs R1CSPoly R1CSAlg R1CSProofs IPPSpec IPPProofs IPPSound R1CSCore R1CSVerif R1CSMisc SoundSplit SoundIPP SoundFree.
Local Open Scope F_scope.

Section Main.
  Context {F : Field}.
  Add Field FFsmain : (f_th F).
  Variables (N n n1 : nat).
  Hypothesis HN : N = next_power_of_two n.
  Local Notation W := (FreeV F (2 + (N + N))).
  Variables (t2 : VState W) (AI1 AO1 SS1 AI2 AO2 SS2 : W) (fl : Flat F).
  Hypotheses (Hshape : shape fl n (length (v_V t2)) (map snd (v_vec t2))) (Hn1 : (n1 <= n)%nat)
             (Hdims : Forall (fun cd => (snd cd <= n1)%nat) (v_vec t2)).
  Variable y : F.
  Hypothesis Hy : y <> 0.

  Let m := length (v_vec t2).
  Let op := op_degree_of m.
  Let mid := (op / 2)%nat.
  Let ov := skipn 2 (op_splits op).
  Let C j : W := fst (nth j (v_vec t2) (v0, 0%nat)).
  Let ld j := fst (nth j ov (0, 0)%nat).
  Let rd j := snd (nth j ov (0, 0)%nat).
  Let wv j i := nth i (nth j (wVC fl) []) 0.

  Lemma n_le_N : (n <= N)%nat. Proof. rewrite HN. apply next_power_of_two_ge. Qed.
  Lemma op_2 : (2 <= op)%nat. Proof. unfold op. rewrite op_degree_even. lia. Qed.
  Lemma mid_mid : (mid + mid = op)%nat.
  Proof. unfold mid, op. rewrite op_degree_even, (Nat.mul_comm 2), Nat.div_mul by lia. lia. Qed.
  Lemma op_mod : (op mod 2 = 0)%nat.
  Proof. unfold op. rewrite op_degree_even, (Nat.mul_comm 2). apply Nat.mod_mul. lia. Qed.
  Lemma ov_length : (m <= length ov)%nat.
  Proof. unfold ov. rewrite skipn_length, op_splits_length by apply op_2. pose proof (op_degree_ge m). fold op in H. lia. Qed.
  Lemma slot_facts j : (j < m)%nat -> (ld j + rd j = op)%nat /\ ~ In (ld j) [op + 1; op; mid]%nat /\ ~ In (rd j) [op + 1; 0; mid]%nat.
  Proof.
    intros Hj. destruct (op_vec_disjoint op op_mod op_2) as (Hf & _). pose proof ov_length. rewrite Forall_forall in Hf.
    specialize (Hf (nth j ov (0, 0)%nat)). unfold ld, rd. fold mid in Hf. destruct (nth j ov (0, 0)%nat) as [a b] eqn:E. cbn [fst snd].
    apply Hf. rewrite <- E. apply nth_In. fold ov. lia.
  Qed.
  Lemma slot_inj j k : (j < m)%nat -> (k < m)%nat -> rd j = rd k -> j = k.
  Proof.
    intros Hj Hk He. destruct (op_vec_disjoint op op_mod op_2) as (_ & _ & Hnd). fold ov in Hnd. pose proof ov_length.
    rewrite (NoDup_nth (map snd ov) 0%nat) in Hnd. apply Hnd; rewrite ?map_length; try lia.
    change 0%nat with (snd (0, 0)%nat). rewrite !map_nth. exact He.
  Qed.

  Lemma nth_repeat_lt (a d : F) k i : (i < k)%nat -> nth i (repeat a k) d = a.
  Proof. revert i; induction k as [|k IH]; intros [|i] Hi; cbn; try lia; [reflexivity|]. apply IH. lia. Qed.

  (** coefficients of the two polynomials, after division by the factors of the generators *)
  Definition gfv (u : F) (i : nat) : F := if (i <? n1)%nat then 1 else u.
  (* vocabulary of specifications and proofs, no code modelled *)
  Definition pG (u : F) (i : nat) (A1 A2 : W) : F := finv (gfv u i) * (on_G N i A1 + u * on_G N i A2).
  (* vocabulary of specifications and proofs, no code modelled *)
  Definition pH (u : F) (i : nat) (A1 A2 : W) : F := finv (gfv u i) * (on_H N i A1 + u * on_H N i A2).
  (* vocabulary of specifications and proofs, no code modelled *)
  Definition cG (u : F) (i j : nat) : F := finv (gfv u i) * on_G N i (C j).
  (* vocabulary of specifications and proofs, no code modelled *)
  Definition cH (u : F) (i j : nat) : F := finv (gfv u i) * on_H N i (C j).
  (* vocabulary of specifications and proofs, no code modelled *)
  Definition ywv (i : nat) : F := nth i (wR fl) 0 * fpow (finv y) i.
  (* vocabulary of specifications and proofs, no code modelled *)
  Definition lco (u : F) (i e : nat) : F :=
    ind mid e (pG u i AI1 AI2 + ywv i) + ind op e (pG u i AO1 AO2) + ind (op + 1) e (pG u i SS1 SS2) + fsum m (fun j => ind (ld j) e (cG u i j)).
  (* vocabulary of specifications and proofs, no code modelled *)
  Definition rco (u : F) (i e : nat) : F :=
    ind mid e (fpow y i * pH u i AI1 AI2 + nth i (wL fl) 0) + ind op e (fpow y i * pH u i AO1 AO2) + ind (op + 1) e (fpow y i * pH u i SS1 SS2)
    + ind 0 e (nth i (wO fl) 0 - fpow y i) + fsum m (fun j => ind (ld j) e (fpow y i * cH u i j)) + fsum m (fun j => ind (rd j) e (wv j i)).

  Lemma co_zero (u : F) i e : (op + 2 <= e)%nat -> lco u i e = 0 /\ rco u i e = 0.
  Proof.
    intros He. pose proof mid_mid. pose proof op_2. unfold lco, rco. rewrite !ind_diff by lia.
    assert (Hz : forall f : nat -> F, fsum m (fun j => ind (ld j) e (f j)) = 0 /\ fsum m (fun j => ind (rd j) e (f j)) = 0).
    { intros f. split; apply fsum_zero; intros j Hj; destruct (slot_facts j Hj) as (Hs & _); apply ind_diff; lia. }
    rewrite (proj1 (Hz _)), (proj1 (Hz _)), (proj2 (Hz _)). split; ring.
  Qed.

  Lemma nth_ufs (u : F) i : (i < N)%nat -> nth i (ufs_of n1 n u) 0 = gfv u i.
  Proof.
    intros Hi. unfold ufs_of, gfv. rewrite <- HN. destruct (Nat.ltb_spec i n1).
    - rewrite app_nth1 by (rewrite repeat_length; assumption). rewrite nth_repeat_lt by assumption. reflexivity.
    - rewrite app_nth2 by (rewrite repeat_length; assumption). rewrite repeat_length. pose proof n_le_N. rewrite nth_repeat_lt by lia. reflexivity.
  Qed.
  Lemma ufs_length (u : F) : length (ufs_of n1 n u) = N.
  Proof. unfold ufs_of. rewrite <- HN, app_length, !repeat_length. pose proof n_le_N. lia. Qed.
  Lemma gfv_nz (u : F) i : u <> 0 -> gfv u i <> 0.
  Proof. intros Hu. unfold gfv. destruct (i <? n1)%nat; [apply f1_neq_0|exact Hu]. Qed.
  Lemma nth_yw i : (i < N)%nat -> nth i (yw_of n y fl) 0 = ywv i.
  Proof.
    intros Hi. destruct Hshape as (WL & WR & _). unfold yw_of, ywv. rewrite <- HN. pose proof n_le_N.
    rewrite nth_app0, zipw_length, exp_iter_length, WR. replace (Nat.min n N) with n by lia. destruct (Nat.ltb_spec i n).
    - rewrite nth_zipw_mul, nth_exp_iter by lia. reflexivity.
    - rewrite (nth_overflow (wR fl)) by lia. rewrite nth_repeat_lt by lia. ring.
  Qed.

  Lemma slots_fsum (x : F) i : slots_sum snd ov (wVC fl) x i = fsum m (fun j => fpow x (rd j) * wv j i).
  Proof.
    destruct Hshape as (_ & _ & _ & _ & WVC).
    assert (Lw : length (wVC fl) = m) by (rewrite <- (map_length (@length F)), WVC, map_length; reflexivity).
    unfold slots_sum, rd, wv. pose proof ov_length as Lo. revert Lw Lo. generalize m, ov, (wVC fl).
    intros m' ov' ws. revert m' ov'. induction ws as [|a ws IH]; intros m' ov' <- Lo.
    - cbn [length fsum]. destruct ov'; reflexivity.
    - destruct ov' as [|o ov']; [cbn in Lo; lia|]. cbn [length] in *. cbn [zipw vsum]. rewrite fsum_S_l. cbn [nth]. f_equal. apply IH; [reflexivity|lia].
  Qed.
  Lemma coms_linear (f : W -> F) (x : F) : linear (W := W) f ->
    f (msm (map (fun o : nat * nat => fpow x (fst o)) (firstn m ov)) (map fst (v_vec t2))) = fsum m (fun j => fpow x (ld j) * f (C j)).
  Proof.
    intros Hf. pose proof ov_length as Lo. rewrite (lin_msm f Hf _ _ m) by (rewrite !map_length; fold m; lia).
    apply fsum_ext. intros j Hj.
    rewrite (nth_map_in (fun o : nat * nat => fpow x (fst o)) (firstn m ov) j (0, 0)%nat) by (rewrite firstn_length; lia).
    rewrite nth_firstn. destruct (Nat.ltb_spec j m); [|lia]. unfold ld, C.
    rewrite (nth_map_in fst (v_vec t2) j (v0, 0%nat)) by exact Hj. reflexivity.
  Qed.

  Section Point.
    Variables (pf : R1CSProof W) (u x w : F).
    Hypotheses (E1 : A_I1 pf = AI1) (E2 : A_O1 pf = AO1) (E3 : S1 pf = SS1) (E4 : A_I2 pf = AI2) (E5 : A_O2 pf = AO2) (E6 : S2 pf = SS2).
    Hypothesis Hu : u <> 0.
    Let P := P_ipp pf t2 n1 n op y u x w fl (bB N) (bBb N) (bG N) (bH N).

    Lemma map_seq_length (f : nat -> F) : length (map f (seq 0 (next_power_of_two n))) = N.
    Proof. rewrite map_length, seq_length. symmetry. exact HN. Qed.

    Lemma fsum_inds D (x' : F) d (c : F) : (d < D)%nat -> fsum D (fun e => ind d e c * fpow x' e) = c * fpow x' d.
    Proof. intros Hd. apply (fsum_ind D d (fpow x')). exact Hd. Qed.
    Lemma fsum_inds2 D (x' : F) (f : nat -> nat) (c : nat -> F) : (forall j, (j < m)%nat -> (f j < D)%nat) ->
      fsum D (fun e => fsum m (fun j => ind (f j) e (c j)) * fpow x' e) = fsum m (fun j => c j * fpow x' (f j)).
    Proof.
      intros Hd. rewrite (fsum_ext D _ (fun e => fsum m (fun j => ind (f j) e (c j) * fpow x' e))) by (intros e _; symmetry; apply fsum_scale_r).
      rewrite fsum_swap. apply fsum_ext. intros j Hj. apply fsum_inds. auto.
    Qed.

    Lemma coords_G i : (i < N)%nat -> on_G N i P * finv (nth i (ufs_of n1 n u) 0) = fsum (op + 2) (fun e => lco u i e * fpow x e).
    Proof.
      intros Hi. rewrite nth_ufs by exact Hi. pose proof (gfv_nz u i Hu) as Hg. pose proof mid_mid. pose proof op_2.
      unfold lco. rewrite (fsum_ext (op + 2) _ (fun e => ind mid e (pG u i AI1 AI2 + ywv i) * fpow x e + ind op e (pG u i AO1 AO2) * fpow x e
         + ind (op + 1) e (pG u i SS1 SS2) * fpow x e + fsum m (fun j => ind (ld j) e (cG u i j)) * fpow x e)) by (intros; ring).
      rewrite !fsum_add, !fsum_inds by lia. rewrite fsum_inds2.
      2:{ intros j Hj. destruct (slot_facts j Hj) as (Hs & _). lia. }
      unfold P, P_ipp. pose proof (on_G_linear (F := F) N i) as Hl.
      rewrite !(lin_add _ Hl), !(lin_smul _ Hl), !(lin_add _ Hl), !(lin_smul _ Hl). fold m ov mid. rewrite (coms_linear _ x Hl).
      rewrite on_G_B, on_G_Bb, E1, E2, E3, E4, E5, E6.
      rewrite (on_msm N _ (bG N) _ i Hl (map_seq_length _) (bG_length N) Hi (fun k Hk => on_G_G N i k Hk)).
      rewrite (on_msm_0 N _ (bH N) _ Hl (map_seq_length _) (bH_length N) (fun k Hk => on_G_H N i k Hk)).
      rewrite <- HN. rewrite (nth_map_seq (fun i => nth i (ufs_of n1 n u) 0 * _)) by exact Hi. rewrite nth_ufs, nth_yw by exact Hi.
      rewrite (fsum_ext m (fun j => cG u i j * fpow x (ld j)) (fun j => finv (gfv u i) * (fpow x (ld j) * on_G N i (C j)))).
      2:{ intros j _. unfold cG. ring. }
      rewrite fsum_scale. unfold pG. field. exact Hg.
    Qed.

    Lemma fpow_finv i : fpow (finv y) i * fpow y i = 1.
    Proof. apply fpow_inv_l. exact Hy. Qed.
    Lemma fpow_nz i : fpow (finv y) i <> 0.
    Proof. intros H. apply (f1_neq_0 (F := F)). rewrite <- (fpow_finv i), H. ring. Qed.

    Lemma coords_H i : (i < N)%nat ->
      on_H N i P * finv (nth i (zipw fmul (exp_iter (finv y) N) (ufs_of n1 n u)) 0) = fsum (op + 2) (fun e => rco u i e * fpow x e).
    Proof.
      intros Hi. rewrite nth_zipw_mul, nth_exp_iter, nth_ufs by exact Hi. pose proof (gfv_nz u i Hu) as Hg. pose proof mid_mid. pose proof op_2.
      unfold rco. rewrite (fsum_ext (op + 2) _ (fun e => ind mid e (fpow y i * pH u i AI1 AI2 + nth i (wL fl) 0) * fpow x e + ind op e (fpow y i * pH u i AO1 AO2) * fpow x e
         + ind (op + 1) e (fpow y i * pH u i SS1 SS2) * fpow x e + ind 0 e (nth i (wO fl) 0 - fpow y i) * fpow x e
         + fsum m (fun j => ind (ld j) e (fpow y i * cH u i j)) * fpow x e + fsum m (fun j => ind (rd j) e (wv j i)) * fpow x e)) by (intros; ring).
      rewrite !fsum_add, !fsum_inds by lia. rewrite !fsum_inds2.
      2,3: intros j Hj; destruct (slot_facts j Hj) as (Hs & _); lia.
      unfold P, P_ipp. pose proof (on_H_linear (F := F) N i) as Hl.
      rewrite !(lin_add _ Hl), !(lin_smul _ Hl), !(lin_add _ Hl), !(lin_smul _ Hl). fold m ov mid. rewrite (coms_linear _ x Hl).
      rewrite on_H_B, on_H_Bb, E1, E2, E3, E4, E5, E6.
      rewrite (on_msm N _ (bH N) _ i Hl (map_seq_length _) (bH_length N) Hi (fun k Hk => on_H_H N i k Hk)).
      rewrite (on_msm_0 N _ (bG N) _ Hl (map_seq_length _) (bG_length N) (fun k Hk => on_H_G N i k Hk)).
      rewrite <- HN. rewrite (nth_map_seq (fun i => nth i (ufs_of n1 n u) 0 * _)) by exact Hi. rewrite nth_ufs, nth_exp_iter by exact Hi.
      rewrite slots_fsum.
      rewrite (fsum_ext m (fun j => fpow y i * cH u i j * fpow x (ld j)) (fun j => (fpow y i * finv (gfv u i)) * (fpow x (ld j) * on_H N i (C j)))).
      2:{ intros j _. unfold cH. ring. }
      rewrite fsum_scale. rewrite (fsum_ext m (fun j => wv j i * fpow x (rd j)) (fun j => fpow x (rd j) * wv j i)) by (intros; ring).
      set (SC := fsum m (fun j => fpow x (ld j) * on_H N i (C j))). set (SW := fsum m (fun j => fpow x (rd j) * wv j i)).
      unfold pH. cbn [fpow].
      pose proof (fpow_finv i) as Hf. pose proof (fpow_nz i) as Hz.
      assert (Hyi : fpow y i = finv (fpow (finv y) i)).
      { rewrite <- (fmul_1_r (finv (fpow (finv y) i))), <- Hf. field. exact Hz. }
      rewrite Hyi. field. auto.
    Qed.

    (* vocabulary of specifications and proofs, no code modelled *)
    Definition pB : F :=
      fsum m (fun j => fpow x (ld j) * on_B N (C j)) + (fpow x mid * (on_B N AI1 + u * on_B N AI2) + fpow x op * (on_B N AO1 + u * on_B N AO2)
        + fpow x (op + 1) * (on_B N SS1 + u * on_B N SS2)).
    Lemma coords_B : on_B N P = pB + w * pt_x pf.
    Proof.
      unfold P, P_ipp, pB. pose proof (on_B_linear (F := F) N) as Hl.
      rewrite !(lin_add _ Hl), !(lin_smul _ Hl), !(lin_add _ Hl), !(lin_smul _ Hl). fold m ov mid. rewrite (coms_linear _ x Hl).
      rewrite on_B_B, on_B_Bb, E1, E2, E3, E4, E5, E6.
      rewrite (on_msm_0 N _ (bH N) _ Hl (map_seq_length _) (bH_length N) (fun k Hk => on_B_H N k)).
      rewrite (on_msm_0 N _ (bG N) _ Hl (map_seq_length _) (bG_length N) (fun k Hk => on_B_G N k)). ring.
    Qed.

    (** the constant term of the check of [t] *)
    Definition Kc : F := fsum (length (v_V t2)) (fun k => nth k (wV fl) 0 * on_B N (nth k (v_V t2) v0)) + (wc fl + delta_of n y fl).
    Lemma tx_coord : on_B N (P_tx pf t2 n op y x fl (bB N) (bBb N)) =
      fsum (2 * (op + 1) + 1) (fun d => (if Nat.eqb d op then Kc else on_B N (nth d (pT pf) v0)) * fpow x d) - pt_x pf.
    Proof.
      pose proof (on_B_linear (F := F) N) as Hl. unfold P_tx. cbv zeta.
      set (M := (2 * (op + 1) + 1)%nat). assert (HoM : (op < M)%nat) by (unfold M; lia).
      set (p' := fun d => if Nat.eqb d op then v0 else nth d (pT pf) v0).
      assert (Hp : map (fun d => nth d (pT pf) v0) (filter (fun d => negb (Nat.eqb d op)) (seq 0 M)) = map p' (filter (fun d => negb (Nat.eqb d op)) (seq 0 M))).
      { apply map_ext_in. intros d Hd. apply filter_In in Hd as [_ Hd]. apply negb_true_iff in Hd. unfold p'. rewrite Hd. reflexivity. }
      rewrite Hp, (msm_filter (fun d => fpow x d) p') by (unfold p'; rewrite Nat.eqb_refl; reflexivity).
      rewrite msm_map_seq. rewrite !(lin_add _ Hl), !(lin_smul _ Hl), (lin_gsum _ Hl), on_B_B, on_B_Bb.
      rewrite (lin_msm _ Hl (wV fl) (v_V t2) (length (v_V t2))) by lia.
      rewrite (except_spec op M (fun d => (if Nat.eqb d op then Kc else on_B N (nth d (pT pf) v0)) * fpow x d) HoM). rewrite Nat.eqb_refl. unfold Kc, except.
      rewrite (fsum_ext M (fun i => on_B N (vsmul (fpow x i) (p' i))) (fun d => if Nat.eqb d op then 0 else
         (if Nat.eqb d op then fsum (length (v_V t2)) (fun k => nth k (wV fl) 0 * on_B N (nth k (v_V t2) v0)) + (wc fl + delta_of n y fl) else on_B N (nth d (pT pf) v0)) * fpow x d)).
      - ring.
      - intros d Hd. rewrite (lin_smul _ Hl). unfold p'. destruct (Nat.eqb d op); [rewrite (lin_0 _ Hl)|]; ring.
    Qed.
  End Point.

  (* vocabulary of specifications and proofs, no code modelled *)
  Definition lr (u : F) (d : nat) : F := fsum N (fun i => fsum (S d) (fun e => lco u i e * rco u i (d - e))).
  (* vocabulary of specifications and proofs, no code modelled *)
  Definition qco (T : list W) (u : F) (d : nat) : F := lr u d - (if Nat.eqb d op then Kc else on_B N (nth d T v0)).
  (* vocabulary of specifications and proofs, no code modelled *)
  Definition lrx (u x : F) : F := fsum N (fun i => fsum (op + 2) (fun e => lco u i e * fpow x e) * fsum (op + 2) (fun e => rco u i e * fpow x e)).

  Lemma lrx_poly u x : lrx u x = fsum (2 * (op + 1) + 1) (fun d => lr u d * fpow x d).
  Proof.
    unfold lrx, lr.
    rewrite (fsum_ext N _ (fun i => fsum (2 * (op + 2)) (fun d => fsum (S d) (fun e => lco u i e * rco u i (d - e)) * fpow x d))).
    2:{ intros i _. apply conv. intros e He. apply co_zero. exact He. }
    rewrite fsum_swap. rewrite (fsum_extend (2 * (op + 1) + 1) (2 * (op + 2))).
    - apply fsum_ext. intros d _. rewrite <- fsum_scale_r. reflexivity.
    - lia.
    - intros d Hd. apply fsum_zero. intros i _. rewrite fsum_zero; [ring|]. intros e He.
      destruct (Nat.le_gt_cases (op + 2) e) as [H1|H1].
      + rewrite (proj1 (co_zero u i e H1)). ring.
      + rewrite (proj2 (co_zero u i (d - e) ltac:(lia))). ring.
  Qed.

  Lemma q_root (T : list W) u x tx : tx = lrx u x ->
    fsum (2 * (op + 1) + 1) (fun d => (if Nat.eqb d op then Kc else on_B N (nth d T v0)) * fpow x d) - tx = 0 ->
    peval (map (qco T u) (seq 0 (2 * (op + 1) + 1))) x = 0.
  Proof.
    intros -> H0. rewrite (peval_fsum _ _ (2 * (op + 1) + 1)) by (rewrite map_length, seq_length; lia).
    rewrite (fsum_ext _ _ (fun d => lr u d * fpow x d - (if Nat.eqb d op then Kc else on_B N (nth d T v0)) * fpow x d)).
    - rewrite fsum_sub, <- lrx_poly.
      apply (f_equal fopp) in H0. transitivity (- 0 : F); [|ring]. rewrite <- H0. ring.
    - intros d Hd. rewrite nth_map_seq by exact Hd. unfold qco. ring.
  Qed.

  (** ** The coefficient of the gate equations as a function of [u] *)
  Local Notation ext := (extracted N n1 t2 AI1 AO1 AI2 AO2).
  Local Notation gd := (gate_defect N n1 t2 AO1).
  (* vocabulary of specifications and proofs, no code modelled *)
  Definition gate_value (i : nat) : F := ext (MulL i) * ext (MulR i) - ext (MulO i) + gd i.

  Lemma lau3_const b (c : F) : lau3 b (fun _ => c) c.
  Proof. exists 0. intros u Hu. destruct b; ring. Qed.
  Lemma lau3_addc b f (c k : F) : lau3 b f c -> lau3 b (fun u => f u + k) (c + k).
  Proof. intros (e & He). exists e. intros u Hu. rewrite He by exact Hu. ring. Qed.
  Lemma lau3_scale b f (c k : F) : lau3 b f c -> lau3 b (fun u => k * f u) (k * c).
  Proof. intros (e & He). exists (k * e). intros u Hu. rewrite He by exact Hu. destruct b; ring. Qed.
  Lemma lau3_pG i (A1 A2 : W) : lau3 (i <? n1)%nat (fun u => pG u i A1 A2) (on_G N i (if (i <? n1)%nat then A1 else A2)).
  Proof.
    unfold pG, gfv. destruct (i <? n1)%nat.
    - exists (on_G N i A2). intros u Hu. field. apply f1_neq_0.
    - exists (on_G N i A1). intros u Hu. field. exact Hu.
  Qed.
  Lemma lau3_pH i (A1 A2 : W) : lau3 (i <? n1)%nat (fun u => pH u i A1 A2) (on_H N i (if (i <? n1)%nat then A1 else A2)).
  Proof.
    unfold pH, gfv. destruct (i <? n1)%nat.
    - exists (on_H N i A2). intros u Hu. field. apply f1_neq_0.
    - exists (on_H N i A1). intros u Hu. field. exact Hu.
  Qed.
  Lemma lau3_cG i j : lau3 (i <? n1)%nat (fun u => cG u i j) (if (i <? n1)%nat then on_G N i (C j) else 0).
  Proof.
    unfold cG, gfv. destruct (i <? n1)%nat.
    - exists 0. intros u Hu. field. apply f1_neq_0.
    - exists (on_G N i (C j)). intros u Hu. field. exact Hu.
  Qed.
  Lemma lau3_cH i j : lau3 (i <? n1)%nat (fun u => cH u i j) (if (i <? n1)%nat then on_H N i (C j) else 0).
  Proof.
    unfold cH, gfv. destruct (i <? n1)%nat.
    - exists 0. intros u Hu. field. apply f1_neq_0.
    - exists (on_H N i (C j)). intros u Hu. field. exact Hu.
  Qed.

  Lemma qco_op_value T u : qco T u op = fsum N (fun i =>
      (pG u i AI1 AI2 + ywv i) * (fpow y i * pH u i AI1 AI2 + nth i (wL fl) 0) + pG u i AO1 AO2 * (nth i (wO fl) 0 - fpow y i) + fsum m (fun j => cG u i j * wv j i)
      + fpow y i * (fsum m (fun j => if Nat.eqb (ld j) 0 then cG u i j * pH u i AO1 AO2 + pG u i AO1 AO2 * cH u i j else 0)
                    + fsum m (fun j => fsum m (fun k => if Nat.eqb (ld j + ld k) op then cG u i j * cH u i k else 0)))) - Kc.
  Proof.
    unfold qco, lr. rewrite Nat.eqb_refl. f_equal. apply fsum_ext. intros i Hi. unfold lco, rco.
    apply (op_coefficient op mid m ld rd (fpow y i)).
    - apply mid_mid.
    - pose proof op_2. pose proof mid_mid. lia.
    - exact slot_facts.
    - exact slot_inj.
  Qed.

  Lemma ip_wires (ws : list F) (mk : nat -> Var) : length ws = n -> ip ws (wires ext mk n) = fsum N (fun i => nth i ws 0 * ext (mk i)).
  Proof.
    intros Lw. pose proof n_le_N as HnN. rewrite (ip_fsum ws _ n) by (unfold wires; rewrite map_length, seq_length; lia).
    rewrite (fsum_extend n N); [|exact HnN|].
    - apply fsum_ext. intros i Hi. unfold wires. rewrite nth_map_seq by exact Hi. reflexivity.
    - intros i Hi. rewrite nth_overflow by lia. ring.
  Qed.

  Lemma delta_value : delta_of n y fl = fsum N (fun i => ywv i * nth i (wL fl) 0).
  Proof.
    destruct Hshape as (WL & WR & _). pose proof n_le_N as HnN. unfold delta_of.
    rewrite (ip_fsum _ _ n) by (rewrite WL; lia). rewrite (fsum_extend n N); [|exact HnN|].
    - apply fsum_ext. intros i Hi. rewrite nth_firstn. destruct (Nat.ltb_spec i n); [|lia]. rewrite nth_yw by lia. reflexivity.
    - intros i Hi. rewrite (nth_overflow (wL fl)) by lia. ring.
  Qed.

  Lemma q_laurent z T : v_flatten t2 z = Some fl ->
    lau5 (fun u => qco T u op) (fsum N (fun i => fpow y i * gate_value i) + batched_constraints ext z (v_cs t2)).
  Proof.
    intros Hfl.
    set (f := fun u => fsum N (fun i =>
      (pG u i AI1 AI2 + ywv i) * (fpow y i * pH u i AI1 AI2 + nth i (wL fl) 0) + pG u i AO1 AO2 * (nth i (wO fl) 0 - fpow y i) + fsum m (fun j => cG u i j * wv j i)
      + fpow y i * (fsum m (fun j => if Nat.eqb (ld j) 0 then cG u i j * pH u i AO1 AO2 + pG u i AO1 AO2 * cH u i j else 0)
                    + fsum m (fun j => fsum m (fun k => if Nat.eqb (ld j + ld k) op then cG u i j * cH u i k else 0)))) - Kc).
    set (G1 := fun i j => if (i <? n1)%nat then on_G N i (C j) else 0). set (H1 := fun i j => if (i <? n1)%nat then on_H N i (C j) else 0).
    set (AL := fun i => on_G N i (if (i <? n1)%nat then AI1 else AI2)). set (AR := fun i => on_H N i (if (i <? n1)%nat then AI1 else AI2)).
    set (AO := fun i => on_G N i (if (i <? n1)%nat then AO1 else AO2)). set (AOH := fun i => on_H N i (if (i <? n1)%nat then AO1 else AO2)).
    assert (Hlau : lau5 f (fsum N (fun i =>
      (AL i + ywv i) * (fpow y i * AR i + nth i (wL fl) 0) + (nth i (wO fl) 0 - fpow y i) * AO i + fsum m (fun j => wv j i * G1 i j)
      + fpow y i * (fsum m (fun j => if Nat.eqb (ld j) 0 then G1 i j * AOH i + AO i * H1 i j else 0)
                    + fsum m (fun j => fsum m (fun k => if Nat.eqb (ld j + ld k) op then G1 i j * H1 i k else 0)))) - Kc)).
    { unfold f. apply lau5_sub; [|apply lau5_const]. apply (lau5_fsum N (fun i u => _)). intros i Hi.
      apply lau5_add; [apply lau5_add; [apply lau5_add|]|].
      - apply (lau5_mul (i <? n1)%nat); apply lau3_addc; [|apply lau3_scale]; [apply lau3_pG|apply lau3_pH].
      - pose proof (lau5_scale _ _ (nth i (wO fl) 0 - fpow y i) (lau5_of_3 _ _ _ (lau3_pG i AO1 AO2))) as HL.
        destruct HL as (e0 & e1 & e3 & e4 & He). exists e0, e1, e3, e4. intros u Hu. etransitivity; [|exact (He u Hu)]. ring.
      - apply (lau5_fsum m (fun j u => _)). intros j Hj.
        pose proof (lau5_scale _ _ (wv j i) (lau5_of_3 _ _ _ (lau3_cG i j))) as HL.
        destruct HL as (e0 & e1 & e3 & e4 & He). exists e0, e1, e3, e4. intros u Hu. etransitivity; [|exact (He u Hu)]. ring.
      - apply lau5_scale. apply lau5_add.
        + apply (lau5_fsum m (fun j u => _)). intros j Hj. apply (lau5_if (Nat.eqb (ld j) 0)). apply lau5_add.
          * apply (lau5_mul (i <? n1)%nat); [apply lau3_cG|apply lau3_pH].
          * apply (lau5_mul (i <? n1)%nat); [apply lau3_pG|apply lau3_cH].
        + apply (lau5_fsum m (fun j u => _)). intros j Hj. apply (lau5_fsum m (fun k u => _)). intros k Hk.
          apply (lau5_if (Nat.eqb (ld j + ld k) op)). apply (lau5_mul (i <? n1)%nat); [apply lau3_cG|apply lau3_cH]. }
    match type of Hlau with lau5 _ ?a => match goal with |- lau5 _ ?b => assert (Hab : a = b) end end.
    2:{ rewrite <- Hab. destruct Hlau as (e0 & e1 & e3 & e4 & He). exists e0, e1, e3, e4. intros u Hu. etransitivity; [|exact (He u Hu)]. rewrite qco_op_value. reflexivity. }
    rewrite <- (v_flatten_value _ _ _ ext Hfl eq_refl). unfold flat_value.
    destruct Hshape as (WL & WR & WO & WV & WVC). rewrite WL, WR, WO, !ip_wires by assumption.
    assert (EV : ip (wV fl) (wires ext Committed (length (wV fl))) = fsum (length (v_V t2)) (fun k => nth k (wV fl) 0 * on_B N (nth k (v_V t2) v0))).
    { rewrite WV. rewrite (ip_fsum _ _ (length (v_V t2))) by (rewrite WV; lia). apply fsum_ext. intros k Hk. unfold wires. rewrite nth_map_seq by exact Hk. reflexivity. }
    rewrite EV. unfold Kc. rewrite delta_value.
    assert (EC : vc_value ext (wVC fl) = fsum N (fun i => fsum m (fun j => wv j i * G1 i j))).
    { unfold vc_value. assert (Lw : length (wVC fl) = m) by (rewrite <- (map_length (@length F)), WVC, map_length; reflexivity). rewrite Lw, fsum_swap.
      apply fsum_ext. intros j Hj. fold (wv j).
      assert (Ld : length (nth j (wVC fl) []) = snd (nth j (v_vec t2) (v0, 0%nat))).
      { rewrite <- (nth_map_in (@length F) (wVC fl) j [] 0%nat) by lia. rewrite WVC. apply (nth_map_in snd). exact Hj. }
      assert (Hd : (snd (nth j (v_vec t2) (v0, 0%nat)) <= n1)%nat).
      { rewrite Forall_forall in Hdims. apply Hdims. apply nth_In. exact Hj. }
      set (r := nth j (wVC fl) []) in *. pose proof n_le_N as HnN.
      rewrite (ip_fsum r _ (length r)) by lia. rewrite (fsum_extend (length r) N); [|lia|].
      - apply fsum_ext. intros i Hi. unfold wires, wv. fold r. rewrite nth_map_seq by exact Hi. unfold G1. destruct (Nat.ltb_spec i n1); [|lia]. reflexivity.
      - intros i Hi. unfold wv. fold r. rewrite nth_overflow by lia. ring. }
    rewrite EC.
    transitivity (fsum N (fun i => fpow y i * gate_value i + nth i (wL fl) 0 * ext (MulL i) + nth i (wR fl) 0 * ext (MulR i) + nth i (wO fl) 0 * ext (MulO i)
       + fsum m (fun j => wv j i * G1 i j) + ywv i * nth i (wL fl) 0)
       - (fsum (length (v_V t2)) (fun k => nth k (wV fl) 0 * on_B N (nth k (v_V t2) v0)) + (wc fl + fsum N (fun i => ywv i * nth i (wL fl) 0)))).
    2:{ rewrite !fsum_add. ring. }
    f_equal. apply fsum_ext. intros i Hi. unfold gate_value, gate_defect.
    assert (Ed : fsum m (fun j => if Nat.eqb (ld j) 0 then G1 i j * AOH i + AO i * H1 i j else 0)
                    + fsum m (fun j => fsum m (fun k => if Nat.eqb (ld j + ld k) op then G1 i j * H1 i k else 0)) = gd i).
    { unfold gate_defect. fold m op. unfold slot. fold ov. unfold G1, H1, AOH, AO. destruct (i <? n1)%nat; [reflexivity|].
      rewrite !fsum_zero; [ring| |].
      - intros j Hj. apply fsum_zero. intros k Hk. destruct (Nat.eqb _ _); ring.
      - intros j Hj. destruct (Nat.eqb _ _); ring. }
    rewrite Ed. cbn [extracted]. fold (AL i) (AR i) (AO i). unfold ywv.
    assert (Hyy : fpow (finv y) i * fpow y i = 1) by (apply fpow_inv_l; exact Hy).
    unfold gate_defect in *. match goal with |- ?l = ?r => apply fsub_0_iff; transitivity (nth i (wR fl) 0 * AR i * (fpow (finv y) i * fpow y i - 1)) end.
    - ring.
    - rewrite Hyy. ring.
  Qed.
End Main.
