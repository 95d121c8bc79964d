(** * The rounds of the argument put together, in the free space *)
From Verif Require Import SoundSpec SoundCount UtilProofs CSProofs FlatProofs R1CSPoly R1CSAlg R1CSProofs IPPSpec IPPProofs IPPSound R1CSCore R1CSVerif R1CSMisc SoundSplit SoundIPP SoundFree SoundMain.
Local Open Scope F_scope.

Section Game.
  Context {F : Field}.
  Add Field FFgame : (f_th F).

  Lemma at_most_False {A} k : at_most k (fun _ : A => False).
  Proof. intros [|a l] _ Hl; [cbn; lia|]. inversion Hl; contradiction. Qed.

  Lemma all_zero (l : list F) : ~ Exists (fun c => c <> 0) l -> Forall (fun c => c = 0) l.
  Proof.
    intros H. induction l as [|a l IH]; constructor.
    - destruct (f_eq_dec a 0) as [|Ha]; [assumption|]. exfalso. apply H. left. exact Ha.
    - apply IH. intros He. apply H. right. exact He.
  Qed.

  Variable N : nat.
  Local Notation W := (FreeV F (2 + (N + N))).

  (* vocabulary of specifications and proofs, no code modelled *)
  Definition sized_ok (t2 : VState W) (n1 : nat) : Prop :=
    N = next_power_of_two (v_size t2) /\ v_num t2 = v_size t2 /\ (n1 <= v_size t2)%nat /\ Forall (fun cd => (snd cd <= n1)%nat) (v_vec t2).
  Lemma sized_ok_dec t2 n1 : {sized_ok t2 n1} + {~ sized_ok t2 n1}.
  Proof.
    unfold sized_ok. destruct (Nat.eq_dec N (next_power_of_two (v_size t2))); [|right; tauto].
    destruct (Nat.eq_dec (v_num t2) (v_size t2)); [|right; tauto]. destruct (le_dec n1 (v_size t2)); [|right; tauto].
    destruct (Forall_dec (fun cd : W * nat => (snd cd <= n1)%nat) (fun cd => le_dec (snd cd) n1) (v_vec t2)); [left; auto|right; tauto].
  Qed.

  (* vocabulary of specifications and proofs, no code modelled *)
  Definition the_proof (AI1 AO1 SS1 AI2 AO2 SS2 : W) T tx txb eb Ls Rs a b : R1CSProof W :=
    mkProof AI1 AO1 SS1 AI2 AO2 SS2 T tx txb eb (mkIPP Ls Rs a b).

  Local Ltac trivial_bad := exists (fun _ => False); split; [apply at_most_False|].

  Lemma game_core (t2 : VState W) n1 (AI1 AO1 SS1 AI2 AO2 SS2 : W) :
    let op := op_degree_of (length (v_vec t2)) in
    let ext := extracted N n1 t2 AI1 AO1 AI2 AO2 in
    unless_unlucky N t2 (fun y z T u x tx txb eb w Ls Rs us a b rr =>
    forall fl, sized_ok t2 n1 -> y <> 0 -> v_flatten t2 z = Some fl ->
      length Ls = length us -> length Rs = length us -> N = (2 ^ length us)%nat ->
      let vt := run_tuple rr (the_proof AI1 AO1 SS1 AI2 AO2 SS2 T tx txb eb Ls Rs a b) t2 n1 (v_size t2) op y u x w fl us in
      msm (vt_scalars vt ++ vt_fixed vt) (vt_points vt ++ [bB N; bBb N] ++ bG N ++ bH N) = v0 ->
      Forall (fun lc => lc_val ext lc = 0) (v_cs t2) /\
      forall i, ext (MulL i) * ext (MulR i) - ext (MulO i) + gate_defect N n1 t2 AO1 i = 0).
  Proof.
    intros op ext. unfold unless_unlucky. fold op.
    destruct (sized_ok_dec t2 n1) as [Hws|Hws].
    2:{ trivial_bad. intros y _. trivial_bad. intros z T _. trivial_bad. intros u _. trivial_bad. intros x tx txb eb _. trivial_bad. intros w _.
        exists (fun _ _ _ _ => False). split; [intros; apply at_most_False|]. intros Ls Rs us a b _. trivial_bad. intros rr _ fl H. contradiction. }
    pose proof Hws as (HN & Hnum & Hn1 & Hdims). set (n := v_size t2) in *.
    set (gates := map (gate_value N n1 t2 AI1 AO1 AI2 AO2) (seq 0 N)).
    exists (fun y => Exists (fun c => c <> 0) gates /\ peval gates y = 0). split.
    { apply at_most_roots. unfold gates. rewrite map_length, seq_length. lia. }
    intros y HbY. destruct (f_eq_dec y 0) as [Hy0|Hy0].
    { trivial_bad. intros z T _. trivial_bad. intros u _. trivial_bad. intros x tx txb eb _. trivial_bad. intros w _.
      exists (fun _ _ _ _ => False). split; [intros; apply at_most_False|]. intros Ls Rs us a b _. trivial_bad. intros rr _ fl _ H. contradiction. }
    set (zs := peval gates y :: map (lc_val ext) (v_cs t2)).
    exists (fun z => Exists (fun c => c <> 0) zs /\ peval zs z = 0). split.
    { apply at_most_roots. unfold zs. cbn [length]. rewrite map_length. lia. }
    intros z T HbZ. destruct (v_flatten t2 z) as [fl|] eqn:Hfl.
    2:{ trivial_bad. intros u _. trivial_bad. intros x tx txb eb _. trivial_bad. intros w _.
        exists (fun _ _ _ _ => False). split; [intros; apply at_most_False|]. intros Ls Rs us a b _. trivial_bad. intros rr _ fl _ _ H. discriminate. }
    pose proof (v_flatten_shape _ _ _ Hfl) as Hshape. rewrite Hnum in Hshape. fold n in Hshape.
    pose proof (q_laurent N n n1 HN t2 AI1 AO1 SS1 AI2 AO2 SS2 fl Hshape Hn1 Hdims y Hy0 z T Hfl) as Hlau.
    fold op ext in Hlau. set (Ec := fsum N (fun i => fpow y i * gate_value N n1 t2 AI1 AO1 AI2 AO2 i) + batched_constraints ext z (v_cs t2)) in Hlau.
    set (q := qco N n n1 t2 AI1 AO1 SS1 AI2 AO2 SS2 fl y T) in Hlau.
    exists (fun u => u = 0 \/ (Ec <> 0 /\ q u op = 0)). split.
    { destruct (f_eq_dec Ec 0) as [He|He].
      - apply (at_most_weaken 1 5 (fun u => u = 0 \/ False)); [lia|tauto|]. apply at_most_or_eq. intros [|a l] _ Hl; [cbn; lia|]. inversion Hl; tauto.
      - apply (at_most_weaken 5 5 (fun u => u = 0 \/ q u op = 0)); [lia|tauto|]. apply (at_most_lau5 _ _ Hlau He). }
    intros u HbU. assert (Hu : u <> 0) by (intros He; apply HbU; left; exact He).
    set (M := (2 * (op + 1) + 1)%nat).
    exists (fun x => q u op <> 0 /\ peval (map (q u) (seq 0 M)) x = 0). split.
    { eapply at_most_weaken; [reflexivity| |apply (at_most_roots (2 * (op + 1)) (map (q u) (seq 0 M))); rewrite map_length, seq_length; unfold M; lia].
      intros x [H1 H2]. split; [|exact H2]. apply Exists_exists. exists (q u op). split; [|exact H1]. apply in_map. apply in_seq. unfold M. lia. }
    intros x tx txb eb HbX.
    set (lx := lrx N n1 t2 AI1 AO1 SS1 AI2 AO2 SS2 fl y u x). set (pb := pB N t2 AI1 AO1 SS1 AI2 AO2 SS2 u x).
    exists (fun w => w = 0 \/ (tx <> lx /\ pb + w * (tx - lx) = 0)). split.
    { apply at_most_or_eq. eapply at_most_weaken; [reflexivity| |apply (at_most_roots 1 [pb; tx - lx]); cbn; lia].
      intros w (_ & H1 & H2). split; [|cbn [peval]; etransitivity; [|exact H2]; ring]. apply Exists_cons_tl, Exists_cons_hd. apply fsub_neq_0. exact H1. }
    intros w HbW. assert (Hw : w <> 0) by (intros He; apply HbW; left; exact He).
    set (pf0 := the_proof AI1 AO1 SS1 AI2 AO2 SS2 T tx txb eb [] [] 0 0).
    set (P := P_ipp pf0 t2 n1 n op y u x w fl (bB N) (bBb N) (bG N) (bH N)).
    set (gf := ufs_of n1 n u). set (hf := zipw fmul (exp_iter (finv y) N) gf).
    assert (Lgf : length gf = N) by (apply ufs_length; assumption).
    assert (Lhf : length hf = N) by (unfold hf; rewrite zipw_length, exp_iter_length; lia).
    assert (Hgf : forall i, (i < N)%nat -> nth i gf 0 <> 0) by (intros i Hi; unfold gf; rewrite (nth_ufs N n n1) by assumption; apply gfv_nz; assumption).
    assert (Hhf : forall i, (i < N)%nat -> nth i hf 0 <> 0).
    { intros i Hi He. unfold hf in He. rewrite nth_zipw_mul, nth_exp_iter in He by exact Hi. apply fmul_eq_0 in He as [He|He]; [|exact (Hgf i Hi He)].
      revert He. apply fpow_neq_0. apply finv_neq_0. exact Hy0. }
    pose proof (basis_independent N gf hf w Lgf Lhf Hw Hgf Hhf) as Hind.
    set (Q := vsmul w (bB N)) in *. set (G := scaled gf (bG N)) in *. set (H := scaled hf (bH N)) in *.
    set (k := Nat.log2_up n).
    assert (HNk : N = (2 ^ k)%nat) by exact HN.
    assert (LG : length G = (2 ^ k)%nat) by (unfold G; rewrite scaled_length, bG_length; rewrite ?bG_length; congruence).
    assert (LH : length H = (2 ^ k)%nat) by (unfold H; rewrite scaled_length, bH_length; rewrite ?bH_length; congruence).
    exists (ibad k Q P G H). split; [intros; apply ibad_few; assumption|].
    intros Ls Rs us a b Hav.
    set (Z := vadd P (vopp (expected us Ls Rs a b Q G H))). set (X := P_tx pf0 t2 n op y x fl (bB N) (bBb N)).
    exists (fun rr => X <> v0 /\ vadd Z (vsmul rr X) = v0). split; [apply at_most_linear|].
    intros rr HbR fl' _ _ Hfl' HLs HRs HNus. assert (fl' = fl) by congruence. subst fl'. intros Hvt.
    destruct (run_tuple_split rr (the_proof AI1 AO1 SS1 AI2 AO2 SS2 T tx txb eb Ls Rs a b) t2 n1 n y u x w fl us (bB N) (bBb N) (bG N) (bH N)) as (_ & _ & _ & Hs);
      [exact Hshape|exact Hn1|exact HLs|exact HRs|rewrite <- HN; exact HNus|rewrite <- HN; apply bG_length|rewrite <- HN; apply bH_length|].
    fold op in Hs. cbv zeta in Hs. rewrite Hs in Hvt. clear Hs. cbn [pipp the_proof ipp_L ipp_R ipp_a ipp_b] in Hvt. rewrite <- HN in Hvt.
    change (vadd Z (vsmul rr X) = v0) in Hvt.
    assert (HX : X = v0).
    { destruct (veqb_spec _ _ X v0) as [|Hne]; [assumption|]. exfalso. apply HbR. split; assumption. }
    rewrite HX in Hvt. assert (HZ : P = expected us Ls Rs a b Q G H).
    { clear -Hvt. unfold Z in Hvt. rewrite vsmul_0_r, vadd_0_r in Hvt. apply (vadd_cancel_l (vopp (expected us Ls Rs a b Q G H))). etransitivity; [etransitivity; [apply vadd_comm|exact Hvt]|symmetry; apply vadd_opp_l]. }
    assert (Hk : (0 + length us = k)%nat).
    { cbn [Nat.add]. apply (Nat.pow_inj_r 2); [lia|]. congruence. }
    pose proof (rounds_open k Q P G H LG LH Hind us Ls Rs [] a b (Forall_nil _) Hk HLs HRs Hav HZ) as Hopen.
    assert (Htx : tx = lx).
    { destruct (f_eq_dec tx lx) as [|Hne]; [assumption|]. exfalso. apply Hopen. intros Ho. unfold iopen, istate in Ho. cbn [fold_left fst snd] in Ho.
      apply (opening_coords N gf hf w Lgf Lhf Hgf Hhf) in Ho. apply HbW. right. split; [exact Hne|].
      assert (Hc : fsum N (fun i => on_G N i P * finv (nth i gf 0) * (on_H N i P * finv (nth i hf 0))) = lx).
      { unfold lx, lrx. apply fsum_ext. intros i Hi. f_equal.
        - apply (coords_G N n n1 HN t2 AI1 AO1 SS1 AI2 AO2 SS2 fl Hshape Hn1 y pf0 u x w); auto.
        - apply (coords_H N n n1 HN t2 AI1 AO1 SS1 AI2 AO2 SS2 fl Hshape Hn1 y Hy0 pf0 u x w); auto. }
      rewrite Hc in Ho.
      pose proof (coords_B N n n1 HN t2 AI1 AO1 SS1 AI2 AO2 SS2 fl Hn1 y pf0 u x w eq_refl eq_refl eq_refl eq_refl eq_refl eq_refl) as HB.
      fold op in HB. change (P_ipp pf0 t2 n1 n op y u x w fl (bB N) (bBb N) (bG N) (bH N)) with P in HB. rewrite HB in Ho. fold pb in Ho. cbn [pf0 the_proof pt_x] in Ho.
      transitivity (pb + w * tx - w * lx); [ring|]. rewrite Ho. ring. }
    assert (Hq : q u op = 0).
    { destruct (f_eq_dec (q u op) 0) as [|Hne]; [assumption|]. exfalso. apply HbX. split; [exact Hne|].
      apply (q_root N n n1 HN t2 AI1 AO1 SS1 AI2 AO2 SS2 fl Hn1 y T u x tx Htx).
      pose proof (tx_coord N n n1 HN t2 fl Hn1 y pf0 x) as Ht. cbn [pf0 the_proof pT pt_x] in Ht. rewrite <- Ht. fold op.
      change (on_B N X = 0). rewrite HX. apply (lin_0 _ (on_B_linear N)). }
    assert (HEc : Ec = 0).
    { destruct (f_eq_dec Ec 0) as [|Hne]; [assumption|]. exfalso. apply HbU. right. split; assumption. }
    assert (Hz : Forall (fun c => c = 0) zs).
    { apply all_zero. intros He. apply HbZ. split; [exact He|]. unfold zs. cbn [peval]. rewrite <- HEc. unfold Ec. rewrite batched_constraints_peval. f_equal.
      unfold gates. rewrite (peval_fsum _ _ N) by (rewrite map_length, seq_length; lia). apply fsum_ext. intros i Hi. rewrite nth_map_seq by exact Hi. ring. }
    unfold zs in Hz. inversion Hz as [|? ? Hg0 Hcs]; subst. split.
    { rewrite Forall_map in Hcs. exact Hcs. }
    assert (Hg : Forall (fun c => c = 0) gates).
    { apply all_zero. intros He. apply HbY. split; assumption. }
    intros i. destruct (Nat.lt_ge_cases i N) as [Hi|Hi].
    - unfold gates in Hg. rewrite Forall_map, Forall_forall in Hg. apply (Hg i). apply in_seq. lia.
    - pose proof (next_power_of_two_ge n) as Hge. cbn [ext extracted]. unfold gate_defect, on_G, on_H.
      destruct (Nat.ltb_spec i N); [lia|]. destruct (Nat.ltb_spec i n1); [lia|]. ring.
  Qed.
End Game.
