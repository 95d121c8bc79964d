(** * The verifier on arbitrary proofs: closed form of its verification tuple *)
From Verif Require Import R1CSSpec UtilProofs CSProofs Lockstep FlatProofs CSMore R1CSPoly R1CSAlg R1CSProofs R1CSCore R1CSMain IPPSpec IPPProofs.
Local Open Scope F_scope.

Section Frames.
  Context {F : Field} {V : VSpace F}.
  Variable E : TrEnv V.
  Implicit Types (t : VState V).

  Lemma vrun_frame A (p : Prog F A) : forall t t' a, vrun E p t = Some (t', a) -> v_vec t' = v_vec t /\ v_V t' = v_V t /\ (v_num t <= v_num t')%nat.
  Proof.
    induction p as [A a0|A|A l r k IH|A x k IH|A x k IH|A c k IH|A lb m k IH|A k IH|A lb k IH|A cb _ k IH]; intros t t' a H; cbn [vrun] in H.
    - assert (t' = t) by congruence. subst. auto.
    - discriminate.
    - destruct (v_multiply t l r) as [t1 v] eqn:Em. apply IH in H as (H1 & H2 & H3).
      unfold v_multiply in Em. assert (Hv : v_vec t1 = v_vec t /\ v_V t1 = v_V t /\ v_num t1 = S (v_num t)) by (split; [|split]; injection Em as <- _; reflexivity).
      destruct Hv as (Q1 & Q2 & Q3). rewrite H1, H2, Q1, Q2. repeat split. lia.
    - destruct (v_allocate t x) as [t1 v] eqn:Em. apply IH in H as (H1 & H2 & H3).
      unfold v_allocate in Em. destruct (v_pend t); injection Em as <- _; cbn in *; rewrite H1, H2; repeat split; cbn in H3; lia.
    - destruct (v_allocate_multiplier t x) as [t1 v] eqn:Em. apply IH in H as (H1 & H2 & H3).
      unfold v_allocate_multiplier in Em. injection Em as <- _; cbn in *; rewrite H1, H2; repeat split; cbn in H3; lia.
    - apply IH in H as (H1 & H2 & H3). auto.
    - apply IH in H as (H1 & H2 & H3). auto.
    - apply IH in H as (H1 & H2 & H3). auto.
    - destruct (challenge_scalar E (v_tr t) lb) as [[c tr]|]; [|discriminate]. apply IH in H as (H1 & H2 & H3). auto.
    - apply IH in H as (H1 & H2 & H3). auto.
  Qed.
  Lemma v_run_all_frame cbs : forall t t', v_run_all E cbs t = Some (Ok t') -> v_vec t' = v_vec t /\ v_V t' = v_V t /\ (v_num t <= v_num t')%nat.
  Proof.
    induction cbs as [|cb cbs IH]; intros t t' H; cbn [v_run_all] in H.
    - assert (t' = t) by congruence. subst. auto.
    - destruct (vrun E cb t) as [[t1 [u|e]]|] eqn:Ev; try discriminate. apply vrun_frame in Ev as (Q1 & Q2 & Q3).
      apply IH in H as (H1 & H2 & H3). rewrite H1, H2, Q1, Q2. repeat split. lia.
  Qed.
  Lemma v_create_randomized_frame t t' : v_create_randomized E t = Some (Ok t') -> v_vec t' = v_vec t /\ v_V t' = v_V t /\ (v_num t <= v_num t')%nat.
  Proof.
    unfold v_create_randomized. destruct (v_def (v_set_num t (v_num t) None)).
    - intros H. assert (t' = v_set_tr (v_set_num t (v_num t) None) (r1cs_1phase_domain_sep (v_tr (v_set_num t (v_num t) None)))) by congruence. subst. auto.
    - intros H. apply v_run_all_frame in H. exact H.
  Qed.

  Lemma fold_max_bounded (vec : list (V * nat)) : forall n0, Forall (fun cd => (snd cd <= n0)%nat) vec -> fold_left (fun n cd => Nat.max (snd cd) n) vec n0 = n0.
  Proof.
    induction vec as [|cd vec IH]; intros n0 H; [reflexivity|]. inversion H; subst. cbn [fold_left].
    replace (Nat.max (snd cd) n0) with n0 by lia. apply IH. assumption.
  Qed.
  Lemma fold_max_ge (vec : list (V * nat)) : forall n0, (n0 <= fold_left (fun n cd => Nat.max (snd cd) n) vec n0)%nat.
  Proof. induction vec as [|cd vec IH]; intros n0; cbn [fold_left]; [lia|]. specialize (IH (Nat.max (snd cd) n0)). lia. Qed.
  Lemma fold_max_all (vec : list (V * nat)) : forall n0, Forall (fun cd => (snd cd <= fold_left (fun n cd => Nat.max (snd cd) n) vec n0)%nat) vec.
  Proof.
    induction vec as [|cd vec IH]; intros n0; constructor; cbn [fold_left]; [|apply IH].
    pose proof (fold_max_ge vec (Nat.max (snd cd) n0)). lia.
  Qed.
  Lemma v_pad_facts t : let t0 := v_pad (v_size t) t in v_num t0 = v_size t /\ v_vec t0 = v_vec t /\ v_V t0 = v_V t /\ v_tr t0 = v_tr t /\
    v_def t0 = v_def t /\ v_cs t0 = v_cs t /\ v_size t0 = v_size t.
  Proof.
    intros t0. unfold t0. rewrite (v_pad_spec (v_size t - v_num t) t eq_refl (v_size t)) by lia.
    assert (H : (v_size t - v_num t + v_num t = v_size t)%nat). { pose proof (fold_max_ge (v_vec t) (v_num t)). unfold v_size. lia. }
    cbn [v_set_num v_num v_vec v_V v_tr v_def v_cs]. repeat split; auto.
    unfold v_size at 1. cbn [v_set_num v_num v_vec]. rewrite H. apply fold_max_bounded. apply fold_max_all.
  Qed.
  Lemma v_size_after t tr t2 : v_create_randomized E (v_set_tr (v_pad (v_size t) t) tr) = Some (Ok t2) ->
    v_size t2 = v_num t2 /\ (v_size t <= v_size t2)%nat /\ v_vec t2 = v_vec t /\ v_V t2 = v_V t.
  Proof.
    intros H. apply v_create_randomized_frame in H as (H1 & H2 & H3).
    destruct (v_pad_facts t) as (P1 & P2 & P3 & _ & _ & _ & P7).
    cbn [v_set_tr v_vec v_V v_num] in H1, H2, H3. rewrite P2 in H1. rewrite P3 in H2.
    change (v_num (v_set_tr (v_pad (v_size t) t) tr)) with (v_num (v_pad (v_size t) t)) in H3. rewrite P1 in H3.
    assert (v_size t2 = v_num t2).
    { unfold v_size. rewrite H1. apply fold_max_bounded. eapply Forall_impl; [|apply (fold_max_all (v_vec t) (v_num t))].
      intros cd Hc. cbv beta in Hc |- *. unfold v_size in H3. lia. }
    repeat split; auto. lia.
  Qed.
End Frames.

Section Tuple.
  Context {F : Field} {V : VSpace F}.
  Add Field FFver : (f_th F).
  Variable E : TrEnv V.
  Implicit Types (t : VState V).

  (** What the verifier checked and drew when it reaches the final equation. *)
  Record v_facts (dbg : bool) (pf : R1CSProof V) t t2 (y z u x w : F) (fl : Flat F) (us : list F) : Prop := mkVF {
    vf_dbg : dbg = true -> length (pT pf) = (2 * (op_degree_of (length (v_vec t)) + 1) + 1)%nat /\
        nth_error (pT pf) (op_degree_of (length (v_vec t))) = Some v0 /\ (v_vec t = [] \/ (A_I2 pf = v0 /\ A_O2 pf = v0 /\ S2 pf = v0));
    vf_nz : A_I1 pf <> v0 /\ A_O1 pf <> v0 /\ S1 pf <> v0;
    vf_rand : v_create_randomized E (v_set_tr (v_pad (v_size t) t) (append_point E (append_point E (append_point E
               (append_u64 (v_tr t) "m" (N.of_nat (length (v_V t)))) "A_I1" (A_I1 pf)) "A_O1" (A_O1 pf)) "S1" (S1 pf))) = Some (Ok t2);
    vf_chal : exists try_ trz trT tru trx trw tri,
      challenge_scalar E (append_point E (append_point E (append_point E (v_tr t2) "A_I2" (A_I2 pf)) "A_O2" (A_O2 pf)) "S2" (S2 pf)) "y" = Some (y, try_) /\
      challenge_scalar E try_ "z" = Some (z, trz) /\
      validate_Ts E (op_degree_of (length (v_vec t))) (seq 0 (2 * (op_degree_of (length (v_vec t)) + 1) + 1)) (pT pf) trz = Some (Ok trT) /\
      challenge_scalar E trT "u" = Some (u, tru) /\
      challenge_scalar E tru "x" = Some (x, trx) /\
      challenge_scalar E (append_scalar E (append_scalar E (append_scalar E trx "t_x" (pt_x pf)) "t_x_blinding" (pt_x_blinding pf)) "e_blinding" (pe_blinding pf)) "w" = Some (w, trw) /\
      ipp_verification_scalars E (pipp pf) (next_power_of_two (v_size t2)) trw
        = Some (Ok (map (fun u : F => u * u) us, map (fun u : F => inv_or_zero u * inv_or_zero u) us, svec us, tri));
    vf_fl : v_flatten t2 z = Some fl;
    vf_y : y <> 0 }.

  Lemma v_scalars_of_facts dbg rr pf t t2 y z u x w fl us : v_facts dbg pf t t2 y z u x w fl us ->
    v_scalars_and_points E dbg rr pf t =
      Some (Ok (run_tuple rr pf t2 (v_size t) (v_size t2) (op_degree_of (length (v_vec t))) y u x w fl us)).
  Proof.
    intros [Hdbg (Z1 & Z2 & Z3) Hr (try_ & trz & trT & tru & trx & trw & tri & Ry & Rz & HVT & Ru & Rx & Rw & Hvsc) Hfl' Ry0].
    destruct (v_size_after E t _ t2 Hr) as (Hsn & Hn1 & Hvec & HV).
    destruct (v_pad_facts t) as (P1 & P2 & P3 & P4 & P5 & P6 & P7). cbv zeta in *.
    destruct (v_flatten_shape _ _ _ Hfl') as (WL & WR & WO & WV & WVC).
    pose proof (proj1 (verification_scalars_spec E _ _ _ _) Hvsc) as (us' & tr' & K1 & K2 & K3 & K4 & K5).
    assert (Lsv : length (svec us) = next_power_of_two (v_size t2)).
    { assert (Hs : svec us = svec us') by congruence. rewrite Hs, svec_length, K4. symmetry. exact K3. }
    set (op := op_degree_of (length (v_vec t))) in *. set (n := v_size t2) in *. set (N := next_power_of_two n) in *.
    assert (HnN : (n <= N)%nat) by apply next_power_of_two_ge. rewrite <- Hsn in *. fold n in WL, WR, WO |- *.
    unfold v_scalars_and_points. set (t0 := v_pad (v_size t) t) in *.
    change (v_vec (v_set_tr t0 _)) with (v_vec t0). rewrite P2. fold op.
    assert (Hg1 : negb dbg || (2 * (op + 1) + 1 =? length (pT pf))%nat = true).
    { destruct dbg; [|reflexivity]. destruct (Hdbg eq_refl) as (-> & _). apply Nat.eqb_refl. }
    rewrite Hg1. cbn [guard].
    change (v_tr (v_set_tr t0 ?a)) with a. rewrite P3, P4, P7.
    rewrite validate_ok by assumption. cbn [res_bind]. rewrite validate_ok by assumption. cbn [res_bind]. rewrite validate_ok by assumption. cbn [res_bind].
    change (v_set_tr (v_set_tr t0 ?a) ?b) with (v_set_tr t0 b). rewrite Hr. cbn [res_bind]. fold n. fold N. rewrite <- Hsn. fold n.
    rewrite Ry. cbn [opt_bind]. rewrite Rz. cbn [opt_bind]. rewrite HVT. cbn [res_bind].
    rewrite Ru. cbn [opt_bind]. rewrite Rx. cbn [opt_bind]. rewrite Rw. cbn [opt_bind]. rewrite Hfl'. cbn [opt_bind].
    rewrite Hvsc. cbn [res_bind]. rewrite (proj2 (finv_opt_Some y (finv y)) (conj Ry0 eq_refl)). cbn [opt_bind].
    set (yw := zipw fmul (wR fl) (exp_iter (finv y) N) ++ repeat 0 (N - n)).
    assert (Lyw : length yw = N).
    { unfold yw. rewrite app_length, zipw_length, repeat_length, exp_iter_length, WR. lia. }
    unfold inner_product at 1. rewrite firstn_length, Lyw, WL. replace (Nat.min n N) with n by lia. rewrite Nat.eqb_refl. cbn [opt_bind].
    assert (Hop2 : (2 <= op)%nat) by (unfold op; rewrite op_degree_even; lia).
    assert (Hope : (op mod 2 = 0)%nat) by (unfold op; rewrite op_degree_even, Nat.mul_comm; apply Nat.mod_mul; lia).
    assert (Hov : (length (v_vec t) <= length (skipn 2 (op_splits op)))%nat).
    { rewrite skipn_length, op_splits_length by exact Hop2. pose proof (op_degree_ge (length (v_vec t))). fold op in H. lia. }
    rewrite (opt_all_slots (fun o => nth (fst o) (exp_iter x (2 * (op + 1) + 1)) 0) _ _ Hov). cbn [opt_bind].
    rewrite (opt_all_slots (fun o => nth (snd o) (exp_iter x (2 * (op + 1) + 1)) 0) _ _ Hov). cbn [opt_bind].
    rewrite app_length, !repeat_length, Lsv. replace (v_size t + (n - v_size t + (N - n)))%nat with N by lia.
    rewrite Nat.leb_refl. cbn [andb guard].
    assert (Hg2 : negb dbg || match nth_error (pT pf) op with Some p => veqb p v0 | None => false end && (length (pT pf) =? 2 * (op + 1) + 1)%nat &&
       ((length (v_vec t) =? 0)%nat || veqb (A_I2 pf) v0 && veqb (A_O2 pf) v0 && veqb (S2 pf) v0) = true).
    { destruct dbg; [|reflexivity]. destruct (Hdbg eq_refl) as (-> & -> & Hz). rewrite Nat.eqb_refl, (proj2 (veqb_true v0 v0) eq_refl).
      destruct Hz as [->|(-> & -> & ->)]; [reflexivity|]. rewrite !(proj2 (veqb_true v0 v0) eq_refl). rewrite !andb_true_r. apply orb_true_r. }
    rewrite Hg2. cbn [guard].
    assert (HX : forall d, (d <= op + 1)%nat -> nth d (exp_iter x (2 * (op + 1) + 1)) 0 = fpow x d) by (intros d Hd; apply nth_exp_iter; lia).
    destruct (op_splits_fst op Hope Hop2) as [_ Hfst]. destruct (op_splits_snd op Hop2) as [_ Hsnd].
    unfold run_tuple. rewrite Hvec. fold N. fold yw. rewrite (firstn_all2 (n:=N) (svec us)) by lia.
    replace (fst (nth 0 (op_splits op) (0, 0)%nat)) with (op / 2)%nat by reflexivity.
    replace (snd (nth 0 (op_splits op) (0, 0)%nat)) with (op / 2)%nat by reflexivity.
    replace (fst (nth 1 (op_splits op) (0, 0)%nat)) with op by reflexivity.
    replace (snd (nth 1 (op_splits op) (0, 0)%nat)) with 0%nat by reflexivity.
    assert (Hmid : (op / 2 <= op)%nat) by (apply Nat.div_le_upper_bound; lia).
    rewrite !HX by lia. rewrite nth_exp_iter_from by lia.
    assert (Hslots : forall (sd : nat * nat -> nat), (forall o, In o (op_splits op) -> (sd o <= op)%nat) ->
       map (fun o => nth (sd o) (exp_iter x (2 * (op + 1) + 1)) 0) (firstn (length (v_vec t)) (skipn 2 (op_splits op)))
       = map (fun o => fpow x (sd o)) (firstn (length (v_vec t)) (skipn 2 (op_splits op)))).
    { intros sd Hsd. apply map_ext_in. intros o Ho. apply HX.
      assert (In o (op_splits op)); [|specialize (Hsd o H); lia].
      rewrite <- (firstn_skipn 2 (op_splits op)). apply in_or_app. right.
      rewrite <- (firstn_skipn (length (v_vec t)) (skipn 2 (op_splits op))). apply in_or_app. left. exact Ho. }
    rewrite (Hslots fst) by (intros o Ho; apply Hfst, in_map, Ho). rewrite (Hslots snd) by (intros o Ho; apply Hsnd, in_map, Ho).
    clear Hslots Hfst Hsnd.
    f_equal. f_equal. f_equal.
    - f_equal. f_equal. f_equal. f_equal. apply map_ext_in. intros d Hd. apply filter_In in Hd as [Hd _]. apply in_seq in Hd. apply nth_exp_iter_from. lia.
    - f_equal. f_equal. f_equal. apply map_ext_in. intros i Hii. apply in_seq in Hii. unfold h_scalar.
      rewrite slots_zipw; [reflexivity|]. rewrite <- Hvec. rewrite <- (map_length (@length F)), WVC, map_length. reflexivity.
  Qed.

  Lemma v_facts_of_scalars dbg rr pf t vt : v_scalars_and_points E dbg rr pf t = Some (Ok vt) ->
    exists t2 y z u x w fl us, v_facts dbg pf t t2 y z u x w fl us.
  Proof.
    destruct (v_pad_facts t) as (P1 & P2 & P3 & P4 & P5 & P6 & P7). cbv zeta in *.
    unfold v_scalars_and_points. set (t0 := v_pad (v_size t) t) in *.
    change (v_vec (v_set_tr t0 _)) with (v_vec t0). rewrite P2.
    set (op := op_degree_of (length (v_vec t))) in *.
    change (v_tr (v_set_tr t0 ?a)) with a. rewrite P3, P4, P7.
    destruct (negb dbg || (2 * (op + 1) + 1 =? length (pT pf))%nat) eqn:Hg1; cbn [guard]; [|discriminate].
    unfold validate, validate_and_append_point.
    destruct (veqb_spec _ _ (A_I1 pf) v0) as [|Z1]; cbn [res_bind]; [discriminate|].
    destruct (veqb_spec _ _ (A_O1 pf) v0) as [|Z2]; cbn [res_bind]; [discriminate|].
    destruct (veqb_spec _ _ (S1 pf) v0) as [|Z3]; cbn [res_bind]; [discriminate|].
    change (v_set_tr (v_set_tr t0 ?a) ?b) with (v_set_tr t0 b).
    destruct (v_create_randomized E _) as [[t2|e]|] eqn:Hr; cbn [res_bind]; [|discriminate|discriminate].
    destruct (challenge_scalar E _ "y") as [[y try_]|] eqn:Ry; cbn [opt_bind]; [|discriminate].
    destruct (challenge_scalar E _ "z") as [[z trz]|] eqn:Rz; cbn [opt_bind]; [|discriminate].
    destruct (validate_Ts E _ _ _ _) as [[trT|e]|] eqn:HVT; cbn [res_bind]; [|discriminate|discriminate].
    destruct (challenge_scalar E _ "u") as [[u tru]|] eqn:Ru; cbn [opt_bind]; [|discriminate].
    destruct (challenge_scalar E _ "x") as [[x trx]|] eqn:Rx; cbn [opt_bind]; [|discriminate].
    destruct (challenge_scalar E _ "w") as [[w trw]|] eqn:Rw; cbn [opt_bind]; [|discriminate].
    destruct (v_flatten t2 z) as [fl|] eqn:Hfl; cbn [opt_bind]; [|discriminate].
    destruct (ipp_verification_scalars E _ _ _) as [[[[[a1 a2] a3] tri]|e]|] eqn:Hvsc; cbn [res_bind]; [|discriminate|discriminate].
    destruct (finv_opt y) as [yi|] eqn:Hyi; cbn [opt_bind]; [|discriminate]. apply finv_opt_Some in Hyi as [Hy0 _].
    destruct (inner_product _ _) as [delta|]; cbn [opt_bind]; [|discriminate].
    destruct (opt_all _) as [xl|]; cbn [opt_bind]; [|discriminate].
    destruct (opt_all _) as [xr|]; cbn [opt_bind]; [|discriminate].
    destruct (Nat.leb _ _ && Nat.leb _ _); cbn [guard]; [|discriminate].
    destruct (negb dbg || _ && _ && (_ || _)) eqn:Hg2; cbn [guard]; [|discriminate]. intros _.
    pose proof (proj1 (verification_scalars_spec E _ _ _ _) Hvsc) as (us & tr' & K1 & K2 & K3 & K4 & K5).
    exists t2, y, z, u, x, w, fl, us. constructor; auto.
    - intros ->. cbn [negb orb] in Hg1, Hg2. apply Nat.eqb_eq in Hg1. apply andb_true_iff in Hg2 as [Hg2 Hz]. apply andb_true_iff in Hg2 as [Hn Hl].
      split; [symmetry; exact Hg1|]. fold op. destruct (nth_error (pT pf) op) as [P|]; [|discriminate]. apply veqb_true in Hn. subst P. split; [reflexivity|].
      apply orb_true_iff in Hz as [Hz|Hz].
      + left. apply Nat.eqb_eq in Hz. apply length_zero_iff_nil. exact Hz.
      + right. apply andb_true_iff in Hz as [Hz Hz3]. apply andb_true_iff in Hz as [Hz1 Hz2]. apply veqb_true in Hz1, Hz2, Hz3. auto.
    - exists try_, trz, trT, tru, trx, trw, tri. repeat (split; [assumption|]). rewrite Hvsc. do 2 f_equal. rewrite K5. congruence.
  Qed.
End Tuple.
