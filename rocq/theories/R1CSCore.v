(** * Main lemma: value of the verification equation on proofs made by the prover *)
From Verif Require Import R1CSSpec UtilProofs CSProofs Lockstep FlatProofs CSMore R1CSPoly R1CSAlg R1CSProofs IPPSpec IPPProofs.
Local Open Scope F_scope.

Section Core.
  Context {F : Field} {V : VSpace F}.
  Add Field FFcore2 : (f_th F).
  Variable E : TrEnv V.
  Variable pc : PedersenGens V.
  Variable g : BPGens V.
  Implicit Types (s : PState F) (t : VState V).

  (** Everything the prover computed, as equations. *)
  Record run (dbg : bool) (rnd : PRand F) s (pf : R1CSProof V) (trf : Transcript)
    (s2 : PState F) (tr1 tr3 : Transcript) (y z u x w : F) (try_ trz trT tru trx trw : Transcript) (fl : Flat F)
    (l r : VecPoly F) (tp : Poly F) (lx rx : list F) (Gr Hr : list V) : Prop := mkRun {
    rn_G : nth_error (G_vec g) 0 = Some Gr;
    rn_H : nth_error (H_vec g) 0 = Some Hr;
    rn_cap1 : (p_size s <= gens_capacity g)%nat;
    rn_AI1 : A_I1 pf = commit_I pc (r_i1 rnd) (p_aL (padded s)) (p_aR (padded s)) (firstn (p_size s) Gr) (firstn (p_size s) Hr);
    rn_AO1 : A_O1 pf = commit_O pc (r_o1 rnd) (p_aO (padded s)) (firstn (p_size s) Gr);
    rn_S1 : S1 pf = commit_I pc (r_s1 rnd) (map (r_sL1 rnd) (seq 0 (p_size s))) (map (r_sR1 rnd) (seq 0 (p_size s)))
                     (firstn (p_size s) Gr) (firstn (p_size s) Hr);
    rn_tr1 : tr1 = append_point E (append_point E (append_point E
               (append_u64 (p_tr s) "m" (N.of_nat (length (p_v s)))) "A_I1" (A_I1 pf)) "A_O1" (A_O1 pf)) "S1" (S1 pf);
    rn_s2 : p_create_randomized E (p_set_tr (padded s) tr1) = Some (Ok s2);
    rn_cap2 : (next_power_of_two (p_size s2) <= gens_capacity g)%nat;
    rn_ph : (p_size s2 - p_size s = 0)%nat \/ p_vec s2 = [];
    rn_AI2 : A_I2 pf = if (0 <? p_size s2 - p_size s)%nat then
               commit_I pc (r_i2 rnd) (skipn (p_size s) (p_aL s2)) (skipn (p_size s) (p_aR s2))
                 (skipn (p_size s) (firstn (p_size s2) Gr)) (skipn (p_size s) (firstn (p_size s2) Hr)) else v0;
    rn_AO2 : A_O2 pf = if (0 <? p_size s2 - p_size s)%nat then
               commit_O pc (r_o2 rnd) (skipn (p_size s) (p_aO s2)) (skipn (p_size s) (firstn (p_size s2) Gr)) else v0;
    rn_S2 : S2 pf = if (0 <? p_size s2 - p_size s)%nat then
               commit_I pc (r_s2 rnd) (map (r_sL2 rnd) (seq 0 (p_size s2 - p_size s))) (map (r_sR2 rnd) (seq 0 (p_size s2 - p_size s)))
                 (skipn (p_size s) (firstn (p_size s2) Gr)) (skipn (p_size s) (firstn (p_size s2) Hr)) else v0;
    rn_tr3 : tr3 = append_point E (append_point E (append_point E (p_tr s2) "A_I2" (A_I2 pf)) "A_O2" (A_O2 pf)) "S2" (S2 pf);
    rn_y : challenge_scalar E tr3 "y" = Some (y, try_);
    rn_z : challenge_scalar E try_ "z" = Some (z, trz);
    rn_fl : p_flatten s2 z = Some fl;
    rn_y0 : y <> 0;
    rn_polys : build_polys (op_degree_of (length (p_vec s))) (op_splits (op_degree_of (length (p_vec s)))) (p_size s2) y (finv y)
        (p_aL s2) (p_aR s2) (p_aO s2)
        (map (r_sL1 rnd) (seq 0 (p_size s)) ++ map (r_sL2 rnd) (seq 0 (p_size s2 - p_size s)))
        (map (r_sR1 rnd) (seq 0 (p_size s)) ++ map (r_sR2 rnd) (seq 0 (p_size s2 - p_size s))) fl (map snd (p_vec s2)) = Some (l, r, tp);
    rn_T : pT pf = map (fun d => if Nat.eqb d (op_degree_of (length (p_vec s))) then v0 else pc_commit pc (nth d tp 0)
               (nth d (map (fun d => if Nat.eqb d (op_degree_of (length (p_vec s))) then 0 else r_t rnd d) (seq 0 (length tp - 1 + 1))) 0)) (seq 0 (length tp - 1 + 1));
    rn_Ts : append_Ts E (op_degree_of (length (p_vec s))) (seq 0 (length tp - 1 + 1)) (pT pf) trz = Some trT;
    rn_u : challenge_scalar E trT "u" = Some (u, tru);
    rn_x : challenge_scalar E tru "x" = Some (x, trx);
    rn_tx : pt_x pf = poly_eval tp x;
    rn_txb : pt_x_blinding pf = poly_eval (upd (map (fun d => if Nat.eqb d (op_degree_of (length (p_vec s))) then 0 else r_t rnd d) (seq 0 (length tp - 1 + 1)))
                (op_degree_of (length (p_vec s))) (fun _ => ip (wV fl) (p_vb s2))) x;
    rn_lx : vp_eval l x = Some lx;
    rn_rx : vp_eval r x = Some rx;
    rn_eb : pe_blinding pf = eval_terms (e_terms (op_degree_of (length (p_vec s))) (op_splits (op_degree_of (length (p_vec s))))
        (r_i1 rnd + u * (if (0 <? p_size s2 - p_size s)%nat then r_i2 rnd else 0))
        (r_o1 rnd + u * (if (0 <? p_size s2 - p_size s)%nat then r_o2 rnd else 0))
        (r_s1 rnd + u * (if (0 <? p_size s2 - p_size s)%nat then r_s2 rnd else 0)) (p_vec s2)) 1 x;
    rn_w : challenge_scalar E (append_scalar E (append_scalar E (append_scalar E trx "t_x" (pt_x pf)) "t_x_blinding" (pt_x_blinding pf)) "e_blinding" (pe_blinding pf)) "w" = Some (w, trw);
    rn_ipp : ipp_create E trw (vsmul w (pcB pc)) (repeat 1 (p_size s) ++ repeat u (p_size s2 - p_size s + (next_power_of_two (p_size s2) - p_size s2)))
        (zipw fmul (exp_iter (finv y) (next_power_of_two (p_size s2))) (repeat 1 (p_size s) ++ repeat u (p_size s2 - p_size s + (next_power_of_two (p_size s2) - p_size s2))))
        (firstn (next_power_of_two (p_size s2)) Gr) (firstn (next_power_of_two (p_size s2)) Hr)
        (lx ++ repeat 0 (next_power_of_two (p_size s2) - p_size s2))
        (rx ++ map (fun i => - nth i (exp_iter y (next_power_of_two (p_size s2))) 0) (seq (p_size s2) (next_power_of_two (p_size s2) - p_size s2)))
        = Some (pipp pf, trf) }.

  Lemma prove_run dbg rnd s pf trf : r1cs_prove E dbg rnd pc g s = Some (Ok (pf, trf)) ->
    exists s2 tr1 tr3 y z u x w try_ trz trT tru trx trw fl l r tp lx rx Gr Hr,
      run dbg rnd s pf trf s2 tr1 tr3 y z u x w try_ trz trT tru trx trw fl l r tp lx rx Gr Hr.
  Proof.
    unfold r1cs_prove. rewrite p_pad_eq. set (s0 := padded s).
    set (tr0 := append_u64 (p_tr s0) "m" (N.of_nat (length (p_v s0)))).
    change (p_size (p_set_tr s0 tr0)) with (p_size s0).
    change (p_aL (p_set_tr s0 tr0)) with (p_aL s0). change (p_aR (p_set_tr s0 tr0)) with (p_aR s0).
    change (p_aO (p_set_tr s0 tr0)) with (p_aO s0). change (p_tr (p_set_tr s0 tr0)) with tr0.
    change (p_vec s0) with (p_vec s).
    assert (Hs0 : p_size s0 = p_size s) by apply padded_size. rewrite Hs0.
    destruct (Nat.ltb_spec (gens_capacity g) (p_size s)) as [|Hc1]; [discriminate|].
    unfold share_G, share_H. destruct (nth_error (G_vec g) 0) as [Gr|] eqn:EG; [|discriminate].
    destruct (nth_error (H_vec g) 0) as [Hr|] eqn:EH; [|discriminate]. cbn [option_map opt_bind].
    set (ai1 := commit_I pc (r_i1 rnd) _ _ _ _). set (ao1 := commit_O _ _ _ _). set (sp1 := commit_I pc (r_s1 rnd) _ _ _ _).
    set (tr1 := append_point E (append_point E (append_point E tr0 "A_I1" ai1) "A_O1" ao1) "S1" sp1).
    change (p_set_tr (p_set_tr s0 tr0) tr1) with (p_set_tr s0 tr1).
    destruct (p_create_randomized E (p_set_tr s0 tr1)) as [[s2|e]|] eqn:Es2; [|discriminate|discriminate]. cbn [res_bind].
    destruct (Nat.ltb_spec (gens_capacity g) (next_power_of_two (p_size s2))) as [|Hc2]; [discriminate|].
    destruct (negb (0 <? p_size s2 - p_size s)%nat || match p_vec s2 with [] => true | _ => false end) eqn:Eph; cbn [guard]; [|discriminate].
    set (N := next_power_of_two (p_size s2)) in *.
    match goal with |- context [append_point E (p_tr s2) "A_I2" ?a] => set (ai2 := a) end.
    match goal with |- context [append_point E _ "A_O2" ?a] => set (ao2 := a) end.
    match goal with |- context [append_point E _ "S2" ?a] => set (sp2 := a) end.
    set (tr3 := append_point E (append_point E (append_point E (p_tr s2) "A_I2" ai2) "A_O2" ao2) "S2" sp2).
    destruct (challenge_scalar E tr3 "y") as [[y try_]|] eqn:Ey; [|discriminate]. cbn [opt_bind].
    destruct (challenge_scalar E try_ "z") as [[z trz]|] eqn:Ez; [|discriminate]. cbn [opt_bind].
    destruct (p_flatten s2 z) as [fl|] eqn:Efl; [|discriminate]. cbn [opt_bind].
    destruct (finv_opt y) as [yi|] eqn:Eyi; [|discriminate]. cbn [opt_bind].
    apply finv_opt_Some in Eyi as [Hy0 ->].
    destruct (build_polys _ _ _ _ _ _ _ _ _ _ _ _) as [[[l r] tp]|] eqn:Epoly; [|discriminate]. cbn [opt_bind].
    destruct (append_Ts E _ _ _ _) as [trT|] eqn:ETs; [|discriminate]. cbn [opt_bind].
    destruct (challenge_scalar E trT "u") as [[u tru]|] eqn:Eu; [|discriminate]. cbn [opt_bind].
    destruct (challenge_scalar E tru "x") as [[x trx]|] eqn:Ex; [|discriminate]. cbn [opt_bind].
    destruct (vp_eval l x) as [lx|] eqn:Elx; [|discriminate]. cbn [opt_bind].
    destruct (vp_eval r x) as [rx|] eqn:Erx; [|discriminate]. cbn [opt_bind].
    destruct (negb dbg || _) eqn:Edbg; cbn [guard]; [|discriminate].
    destruct (challenge_scalar E _ "w") as [[w trw]|] eqn:Ew; [|discriminate]. cbn [opt_bind].
    destruct (ipp_create E _ _ _ _ _ _ _ _) as [[ipp tri]|] eqn:Eipp; [|discriminate]. cbn [opt_bind].
    intros H. match type of H with Some (Ok (?a, ?b)) = _ => assert (Hpf : a = pf /\ b = trf) by (split; congruence) end.
    clear H. destruct Hpf as [<- ->].
    exists s2, tr1, tr3, y, z, u, x, w, try_, trz, trT, tru, trx, trw, fl, l, r, tp, lx, rx, Gr, Hr.
    constructor; cbn [A_I1 A_O1 S1 A_I2 A_O2 S2 pT pt_x pt_x_blinding pe_blinding pipp]; try assumption; try reflexivity; try (fold N; assumption).
    - apply orb_true_iff in Eph as [Hph|Hph].
      + left. apply negb_true_iff, Nat.ltb_ge in Hph. lia.
      + right. destruct (p_vec s2); [reflexivity|discriminate].
    - unfold ai2. destruct (0 <? p_size s2 - p_size s)%nat; reflexivity.
    - unfold ao2. destruct (0 <? p_size s2 - p_size s)%nat; reflexivity.
    - unfold sp2. destruct (0 <? p_size s2 - p_size s)%nat; reflexivity.
  Qed.

  Lemma size_is_length s1 s2 : gates_inv s1 -> length (p_aL s1) = p_size s1 -> p_create_randomized E s1 = Some (Ok s2) ->
    p_size s2 = length (p_aL s2) /\ (p_size s1 <= p_size s2)%nat.
  Proof.
    intros Hi Hl Hc. destruct (create_randomized_stable _ _ _ Hi Hc) as (Hle & _).
    destruct (create_randomized_frame _ _ _ Hc) as (_ & _ & Hv).
    assert (H : p_size s2 = length (p_aL s2)).
    { unfold p_size. rewrite Hv. apply vmax_bounded. eapply Forall_impl; [|exact (vmax_all (p_vec s1) (length (p_aL s1)))].
      intros bv Hb. cbv beta in Hb |- *. change (vmax (p_vec s1) (length (p_aL s1))) with (p_size s1) in Hb. lia. }
    split; [exact H|]. lia.
  Qed.

  Lemma run_facts dbg rnd s pf trf s2 tr1 tr3 y z u x w try_ trz trT tru trx trw fl l r tp lx rx Gr Hr t :
    run dbg rnd s pf trf s2 tr1 tr3 y z u x w try_ trz trT tru trx trw fl l r tp lx rx Gr Hr ->
    agree pc g s t -> gates_inv s ->
    exists t2, v_create_randomized E (v_set_tr (v_pad (v_size t) t) tr1) = Some (Ok t2) /\ agree pc g s2 t2 /\ gates_inv s2 /\
      length (p_aL s2) = p_size s2 /\ (p_size s <= p_size s2)%nat /\
      p_v s2 = p_v s /\ p_vb s2 = p_vb s /\ p_vec s2 = p_vec s /\
      firstn (p_size s) (p_aL s2) = p_aL (padded s) /\ firstn (p_size s) (p_aR s2) = p_aR (padded s) /\ firstn (p_size s) (p_aO s2) = p_aO (padded s) /\
      Forall (fun bv => (length (snd bv) <= p_size s)%nat) (p_vec s) /\ v_size t2 = p_size s2 /\ v_num t2 = p_size s2 /\
      v_size (v_pad (v_size t) t) = p_size s.
  Proof.
    intros R Ha Hi. pose proof (rn_s2 _ _ _ _ _ _ _ _ _ _ _ _ _ _ _ _ _ _ _ _ _ _ _ _ _ _ _ R) as Hs2.
    pose proof (padded_inv _ Hi) as Hi0. pose proof (padded_length s) as Hl0. pose proof (padded_size s) as Hz0.
    assert (Hi1 : gates_inv (p_set_tr (padded s) tr1)) by exact Hi0.
    pose proof (set_tr_agree pc g _ _ tr1 (pad_agree pc g _ _ Ha)) as Ha1.
    destruct (lockstep_create_randomized _ _ _ _ _ _ Hi1 Ha1 Hs2) as (t2 & Ht2 & Ha2).
    destruct (p_create_randomized_inv _ _ _ Hi1 Hs2) as [Hi2 _].
    destruct (size_is_length _ _ Hi1 (eq_trans Hl0 (eq_sym Hz0)) Hs2) as [Hn Hle].
    change (p_size (p_set_tr (padded s) tr1)) with (p_size (padded s)) in Hle. rewrite Hz0 in Hle.
    destruct (create_randomized_frame _ _ _ Hs2) as (Hv & Hvb & Hvec).
    destruct (create_randomized_stable _ _ _ Hi1 Hs2) as (_ & F1 & F2 & F3).
    cbn [p_set_tr p_aL p_aR p_aO] in F1, F2, F3. 
    change (p_aL (p_set_tr (padded s) tr1)) with (p_aL (padded s)) in F1, F2, F3. rewrite Hl0 in F1, F2, F3.
    exists t2. pose proof (v_size_agree _ _ _ _ Ha2) as Hvs. pose proof (v_size_agree _ _ _ _ (pad_agree pc g _ _ Ha)) as Hvs0.
    repeat match goal with |- _ /\ _ => split end; try assumption; try (symmetry; assumption).
    - apply vmax_all.
    - rewrite <- (ag_num _ _ _ _ Ha2). symmetry. exact Hn.
    - rewrite Hvs0. exact Hz0.
  Qed.


  (** The verifier's tuple on a proof produced by a run of the prover. *)
  Definition run_tuple (rr : F) (pf : R1CSProof V) (t2 : VState V) (n1 n op : nat) (y u x w : F) (fl : Flat F) (us : list F) : VTuple V :=
    let N := next_power_of_two n in
    let ncomm := length (v_vec t2) in
    let mid := (op / 2)%nat in
    let ov := skipn 2 (op_splits op) in
    let a := ipp_a (pipp pf) in
    let b := ipp_b (pipp pf) in
    let ufs := repeat 1 n1 ++ repeat u (n - n1 + (N - n)) in
    let yw := zipw fmul (wR fl) (exp_iter (finv y) N) ++ repeat 0 (N - n) in
    let ds := filter (fun d => negb (Nat.eqb d op)) (seq 0 (2 * (op + 1) + 1)) in
    mkVT (map fst (v_vec t2) ++ [A_I1 pf; A_O1 pf; S1 pf; A_I2 pf; A_O2 pf; S2 pf]
            ++ v_V t2 ++ map (fun d => nth d (pT pf) v0) ds ++ ipp_L (pipp pf) ++ ipp_R (pipp pf))
         (map (fun o => fpow x (fst o)) (firstn ncomm ov) ++ [fpow x mid; fpow x op; fpow x (op + 1); fpow x mid * u; fpow x op * u; fpow x (op + 1) * u]
            ++ map (fun c => c * (rr * fpow x op)) (wV fl) ++ map (fun d => rr * fpow x d) ds
            ++ map (fun c => c * c) us ++ map (fun c => inv_or_zero c * inv_or_zero c) us)
         ((w * (pt_x pf - a * b) + rr * (fpow x op * (wc fl + ip (firstn n yw) (wL fl)) - pt_x pf))
            :: (- pe_blinding pf - rr * pt_x_blinding pf)
            :: zipw (fun '(yw0, u1) si => u1 * (fpow x mid * yw0 - a * si)) (combine yw ufs) (svec us)
            ++ map (fun i => nth i ufs 0 * (nth i (exp_iter (finv y) N) 0 * (fpow x mid * nth i (wL fl) 0 + 1 * nth i (wO fl) 0
                                + slots_sum snd ov (wVC fl) x i - b * nth i (rev (svec us)) 0) - 1)) (seq 0 N)).

  Lemma nth_exp_iter_from (rr x : F) n d : (d < n)%nat -> nth d (exp_iter_from rr x n) 0 = rr * fpow x d.
  Proof. 
    revert rr d. induction n as [|n IH]; intros rr d Hd; [lia|]. cbn [exp_iter_from]. destruct d as [|d]; cbn [nth].
    - cbn. ring.
    - rewrite IH by lia. cbn [fpow]. ring.
  Qed.

  Lemma verify_run dbg rnd s pf trf s2 tr1 tr3 y z u x w try_ trz trT tru trx trw fl l r tp lx rx Gr Hr t :
    run dbg rnd s pf trf s2 tr1 tr3 y z u x w try_ trz trT tru trx trw fl l r tp lx rx Gr Hr ->
    agree pc g s t -> gates_inv s -> length tp = (2 * (op_degree_of (length (p_vec s)) + 1) + 1)%nat ->
    Forall (fun P => P <> v0) (validated_points (op_degree_of (length (p_vec s))) pf) ->
    (length (ipp_L (pipp pf)) < 32)%nat ->
    exists t2 fl' us, v_create_randomized E (v_set_tr (v_pad (v_size t) t) tr1) = Some (Ok t2) /\
      r1cs_challenges E pf t = Some (t2, y, z, x) /\
      v_flatten t2 z = Some fl' /\ same_w fl fl' /\
      length us = length (ipp_L (pipp pf)) /\ length (ipp_R (pipp pf)) = length (ipp_L (pipp pf)) /\
      next_power_of_two (p_size s2) = (2 ^ length us)%nat /\
      ipp_statement (vsmul w (pcB pc)) (repeat 1 (p_size s) ++ repeat u (p_size s2 - p_size s + (next_power_of_two (p_size s2) - p_size s2)))
        (zipw fmul (exp_iter (finv y) (next_power_of_two (p_size s2))) (repeat 1 (p_size s) ++ repeat u (p_size s2 - p_size s + (next_power_of_two (p_size s2) - p_size s2))))
        (firstn (next_power_of_two (p_size s2)) Gr) (firstn (next_power_of_two (p_size s2)) Hr)
        (lx ++ repeat 0 (next_power_of_two (p_size s2) - p_size s2))
        (rx ++ map (fun i => - nth i (exp_iter y (next_power_of_two (p_size s2))) 0) (seq (p_size s2) (next_power_of_two (p_size s2) - p_size s2)))
       = expected us (ipp_L (pipp pf)) (ipp_R (pipp pf)) (ipp_a (pipp pf)) (ipp_b (pipp pf)) (vsmul w (pcB pc))
           (scaled (repeat 1 (p_size s) ++ repeat u (p_size s2 - p_size s + (next_power_of_two (p_size s2) - p_size s2))) (firstn (next_power_of_two (p_size s2)) Gr))
           (scaled (zipw fmul (exp_iter (finv y) (next_power_of_two (p_size s2))) (repeat 1 (p_size s) ++ repeat u (p_size s2 - p_size s + (next_power_of_two (p_size s2) - p_size s2)))) (firstn (next_power_of_two (p_size s2)) Hr)) /\
      forall rr, v_scalars_and_points E dbg rr pf t =
        Some (Ok (run_tuple rr pf t2 (p_size s) (p_size s2) (op_degree_of (length (p_vec s))) y u x w fl' us)).
  Proof.
    intros R Ha Hi Htp Hnz H32.
    destruct (run_facts _ _ _ _ _ _ _ _ _ _ _ _ _ _ _ _ _ _ _ _ _ _ _ _ _ _ _ t R Ha Hi)
      as (t2 & Ht2 & Ha2 & Hi2 & HlaL & Hn1 & Hpv & Hpvb & Hvec & _ & _ & _ & Hvl & Hvs & Hvn & Hvs0).
    destruct R as [RG RH Rc1 RAI1 RAO1 RS1 Rtr1 Rs2 Rc2 Rph RAI2 RAO2 RS2 Rtr3 Ry Rz Rfl Ry0 Rpo RT RTs Ru Rx Rtx Rtxb Rlx Rrx Reb Rw Ripp].
    assert (HTlen : length (pT pf) = (2 * (op_degree_of (length (p_vec s)) + 1) + 1)%nat).
    { rewrite RT, map_length, seq_length, Htp. lia. }
    assert (Htl : (length tp - 1 + 1 = 2 * (op_degree_of (length (p_vec s)) + 1) + 1)%nat) by lia.
    rewrite Htl in *.
    destruct (p_v_flatten _ _ _ _ _ _ Ha2 Rfl) as (fl' & Hfl' & Hsame).
    destruct (v_flatten_shape _ _ _ Hfl') as (WL & WR & WO & WV & WVC).
    destruct (ipp_create_spec _ _ _ _ _ _ _ _ _ _ _ Ripp) as (k & us & K1 & K2 & K3 & K4 & K5 & K6 & K7 & K8 & K9 & K10 & K11 & K12).
    set (op := op_degree_of (length (p_vec s))) in *. set (n := p_size s2) in *. set (N := next_power_of_two n) in *.
    assert (HN : N = (2 ^ k)%nat).
    { pose proof K5 as K5'. rewrite app_length, !repeat_length in K5'. pose proof (next_power_of_two_ge n). fold N in H. lia. }
    assert (HnN : (n <= N)%nat) by apply next_power_of_two_ge.
    unfold validated_points in Hnz. apply Forall_app in Hnz as [HnzA Hnz]. apply Forall_app in Hnz as [HnzT Hnz]. apply Forall_app in Hnz as [HnzL HnzR].
    apply Forall_cons_iff in HnzA as [Z1 HnzA]. apply Forall_cons_iff in HnzA as [Z2 HnzA]. apply Forall_cons_iff in HnzA as [Z3 _].
    rewrite HTlen in HnzT.
    specialize (K11 HnzL HnzR).
    assert (Htr0 : v_tr (v_pad (v_size t) t) = p_tr s).
    { pose proof (ag_tr _ _ _ _ (pad_agree pc g _ _ Ha)) as H. rewrite <- H. reflexivity. }
    assert (HV0 : length (v_V (v_pad (v_size t) t)) = length (p_v s)).
    { rewrite (ag_V _ _ _ _ (pad_agree pc g _ _ Ha)), zipw_length. cbn [padded p_v p_vb p_set_wires]. rewrite <- (ag_vb _ _ _ _ Ha). apply Nat.min_id. }
    assert (Hnc0 : length (v_vec (v_pad (v_size t) t)) = length (p_vec s)).
    { rewrite (ag_vec _ _ _ _ (pad_agree pc g _ _ Ha)), map_length. reflexivity. }
    assert (Hnc : length (v_vec t2) = length (p_vec s)).
    { rewrite (ag_vec _ _ _ _ Ha2), map_length. rewrite Hvec. reflexivity. }
    assert (HVT : validate_Ts E op (seq 0 (2 * (op + 1) + 1)) (pT pf) trz = Some (Ok trT)).
    { apply validate_Ts_append; [exact RTs|]. intros d Hd Hne. rewrite Forall_map, Forall_forall in HnzT.
      apply HnzT. apply filter_In. split; [exact Hd|]. apply negb_true_iff, Nat.eqb_neq, Hne. }
    assert (HTop : nth_error (pT pf) op = Some v0).
    { rewrite RT. rewrite nth_error_map. rewrite (nth_error_nth' _ 0%nat) by (rewrite seq_length; lia).
      rewrite seq_nth by lia. cbn [option_map]. rewrite Nat.eqb_refl. reflexivity. }
    exists t2, fl', us. 
    split; [exact Ht2|]. split.
    { unfold r1cs_challenges. rewrite Htr0, HV0, Hnc0. fold op. rewrite <- Rtr1, Ht2. rewrite <- (ag_tr _ _ _ _ Ha2), <- Rtr3.
      rewrite Ry. cbn [opt_bind]. rewrite Rz. cbn [opt_bind]. rewrite RTs. cbn [opt_bind].
      rewrite Ru. cbn [opt_bind]. rewrite Rx. cbn [opt_bind]. reflexivity. }
    split; [exact Hfl'|]. split; [exact Hsame|].
    split; [congruence|]. split; [congruence|]. split; [rewrite K7; exact HN|]. split; [exact K12|].
    intros rr. unfold v_scalars_and_points.
    change (v_V (v_pad (v_size t) t)) with (v_V (v_pad (v_size t) t)).
    set (t0 := v_pad (v_size t) t) in *.
    change (v_vec (v_set_tr t0 _)) with (v_vec t0). rewrite Hnc0. fold op. rewrite HTlen, Nat.eqb_refl, orb_true_r. cbn [guard].
    change (v_tr (v_set_tr t0 ?a)) with a. rewrite Htr0, HV0.
    rewrite !validate_ok by assumption. cbn [res_bind]. rewrite validate_ok by assumption. cbn [res_bind]. rewrite validate_ok by assumption. cbn [res_bind].
    rewrite <- Rtr1. change (v_set_tr (v_set_tr t0 ?a) ?b) with (v_set_tr t0 b). rewrite Ht2. cbn [res_bind].
    rewrite Hvs, Hvs0, Hvn. fold n N. rewrite <- (ag_tr _ _ _ _ Ha2), <- Rtr3.
    rewrite Ry. cbn [opt_bind]. rewrite Rz. cbn [opt_bind]. rewrite HVT. cbn [res_bind].
    rewrite Ru. cbn [opt_bind]. rewrite Rx. cbn [opt_bind]. rewrite Rw. cbn [opt_bind]. rewrite Hfl'. cbn [opt_bind].
    assert (Hvsc : ipp_verification_scalars E (pipp pf) N trw =
       Some (Ok (map (fun u : F => u * u) us, map (fun u : F => inv_or_zero u * inv_or_zero u) us, svec us, trf))).
    { apply verification_scalars_spec. exists us, trf. rewrite <- K5, app_length, !repeat_length in K11.
      replace (p_size s + (n - p_size s + (N - n)))%nat with N in K11 by lia.
      split; [exact K11|]. split; [exact H32|]. split; [congruence|]. split; [congruence|reflexivity]. }
    rewrite Hvsc. cbn [res_bind]. rewrite (proj2 (finv_opt_Some y (finv y)) (conj Ry0 eq_refl)). cbn [opt_bind].
    rewrite Hvn in *.
    assert (Lsv : length (svec us) = N) by (rewrite svec_length; congruence).
    set (yw := zipw fmul (wR fl') (exp_iter (finv y) N) ++ repeat 0 (N - n)).
    assert (Lyw : length yw = N).
    { unfold yw. rewrite app_length, zipw_length, repeat_length, exp_iter_length, WR. lia. }
    unfold inner_product at 1. rewrite firstn_length, Lyw, WL. replace (Nat.min n N) with n by lia. rewrite Nat.eqb_refl. cbn [opt_bind].
    assert (Hop2 : (2 <= op)%nat) by (unfold op; rewrite op_degree_even; lia).
    assert (Hope : (op mod 2 = 0)%nat) by (unfold op; rewrite op_degree_even, Nat.mul_comm; apply Nat.mod_mul; lia).
    assert (Hov : (length (p_vec s) <= length (skipn 2 (op_splits op)))%nat).
    { rewrite skipn_length, op_splits_length by exact Hop2. pose proof (op_degree_ge (length (p_vec s))). fold op in H. lia. }
    rewrite (opt_all_slots (fun o => nth (fst o) (exp_iter x (2 * (op + 1) + 1)) 0) _ _ Hov). cbn [opt_bind].
    rewrite (opt_all_slots (fun o => nth (snd o) (exp_iter x (2 * (op + 1) + 1)) 0) _ _ Hov). cbn [opt_bind].
    rewrite app_length, !repeat_length, Lsv. replace (p_size s + (n - p_size s + (N - n)))%nat with N by lia.
    rewrite Nat.leb_refl. cbn [andb guard]. rewrite HTop. rewrite (proj2 (veqb_true v0 v0) eq_refl).
    assert (Hph2 : (length (p_vec s) =? 0)%nat || veqb (A_I2 pf) v0 && veqb (A_O2 pf) v0 && veqb (S2 pf) v0 = true).
    { destruct (Nat.eqb_spec (length (p_vec s)) 0) as [|Hne]; [reflexivity|]. cbn [orb].
      destruct Rph as [Hz|Hz]; [|rewrite Hvec in Hz; rewrite Hz in Hne; contradiction Hne; reflexivity].
      rewrite Hz in RAI2, RAO2, RS2. cbn in RAI2, RAO2, RS2. rewrite RAI2, RAO2, RS2. rewrite !(proj2 (veqb_true v0 v0) eq_refl). reflexivity. }
    rewrite Hph2. cbn [andb]. rewrite orb_true_r. cbn [guard].
    assert (HX : forall d, (d <= op + 1)%nat -> nth d (exp_iter x (2 * (op + 1) + 1)) 0 = fpow x d) by (intros d Hd; apply nth_exp_iter; lia).
    destruct (op_splits_fst op Hope Hop2) as [_ Hfst]. destruct (op_splits_snd op Hop2) as [_ Hsnd].
    unfold run_tuple. rewrite Hnc. fold N. fold yw. rewrite (firstn_all2 (n:=N) (svec us)) by lia.
    replace (fst (nth 0 (op_splits op) (0, 0)%nat)) with (op / 2)%nat by reflexivity.
    replace (snd (nth 0 (op_splits op) (0, 0)%nat)) with (op / 2)%nat by reflexivity.
    replace (fst (nth 1 (op_splits op) (0, 0)%nat)) with op by reflexivity.
    replace (snd (nth 1 (op_splits op) (0, 0)%nat)) with 0%nat by reflexivity.
    assert (Hmid : (op / 2 <= op)%nat) by (apply Nat.div_le_upper_bound; lia).
    rewrite !HX by lia. rewrite nth_exp_iter_from by lia.
    assert (Hslots : forall (sd : nat * nat -> nat), (forall o, In o (op_splits op) -> (sd o <= op)%nat) ->
       map (fun o => nth (sd o) (exp_iter x (2 * (op + 1) + 1)) 0) (firstn (length (p_vec s)) (skipn 2 (op_splits op)))
       = map (fun o => fpow x (sd o)) (firstn (length (p_vec s)) (skipn 2 (op_splits op)))).
    { intros sd Hsd. apply map_ext_in. intros o Ho. apply HX. 
      assert (In o (op_splits op)); [|specialize (Hsd o H); lia].
      rewrite <- (firstn_skipn 2 (op_splits op)). apply in_or_app. right.
      rewrite <- (firstn_skipn (length (p_vec s)) (skipn 2 (op_splits op))). apply in_or_app. left. exact Ho. }
    rewrite (Hslots fst) by (intros o Ho; apply Hfst, in_map, Ho). rewrite (Hslots snd) by (intros o Ho; apply Hsnd, in_map, Ho).
    clear Hslots Hfst Hsnd.
    f_equal. f_equal. f_equal.
    - f_equal. f_equal. f_equal. f_equal. apply map_ext_in. intros d Hd. apply filter_In in Hd as [Hd _]. apply in_seq in Hd. apply nth_exp_iter_from. lia.
    - f_equal. f_equal. f_equal. apply map_ext_in. intros i Hii. apply in_seq in Hii. unfold h_scalar.
      rewrite slots_zipw; [reflexivity|]. rewrite <- Hnc. rewrite <- (map_length (@length F)), WVC, map_length. reflexivity.
  Qed.

  (* vocabulary of specifications and proofs, no code modelled *)
  Definition except (op M : nat) (f : nat -> F) : F := fsum M (fun d => if Nat.eqb d op then 0 else f d).
  Lemma except_spec op M f : (op < M)%nat -> fsum M f = except op M f + f op.
  Proof.
    intros H. unfold except.
    assert (Hs : fsum M (fun d => if Nat.eqb d op then f d else 0) = f op).
    { rewrite (fsum_single M (fun d => if Nat.eqb d op then f d else 0) op H).
      - cbv beta. rewrite Nat.eqb_refl. reflexivity.
      - intros i _ Hi. cbv beta. apply Nat.eqb_neq in Hi. rewrite Hi. reflexivity. }
    rewrite <- Hs. rewrite <- fsum_add. apply fsum_ext. intros i _. destruct (Nat.eqb i op); ring.
  Qed.
  Lemma msm_map_seq (f : nat -> F) (p : nat -> V) M : msm (map f (seq 0 M)) (map p (seq 0 M)) = gsum M (fun d => vsmul (f d) (p d)).
  Proof.
    rewrite (msm_gsum _ _ M) by (rewrite !map_length, seq_length; lia). apply gsum_ext. intros i Hi.
    rewrite (nth_map_seq f) by exact Hi. rewrite (nth_map_seq p) by exact Hi. reflexivity.
  Qed.
  Lemma T_sum op M (rr x : F) (T : list V) (tv bv : nat -> F) : (op < M)%nat ->
    T = map (fun d => if Nat.eqb d op then v0 else pc_commit pc (tv d) (bv d)) (seq 0 M) ->
    let ds := filter (fun d => negb (Nat.eqb d op)) (seq 0 M) in
    msm (map (fun d => rr * fpow x d) ds) (map (fun d => nth d T v0) ds)
    = vsmul rr (vadd (vsmul (except op M (fun d => fpow x d * tv d)) (pcB pc)) (vsmul (except op M (fun d => fpow x d * bv d)) (pcB_blinding pc))).
  Proof.
    intros Ho -> ds. unfold ds. rewrite (msm_filter (fun d => rr * fpow x d)).
    2:{ rewrite (nth_map_seq (fun d => if Nat.eqb d op then v0 else pc_commit pc (tv d) (bv d))) by exact Ho. rewrite Nat.eqb_refl. reflexivity. }
    rewrite msm_map_seq. unfold except.
    rewrite (gsum_ext M _ (fun d => vadd (vsmul (rr * (if Nat.eqb d op then 0 else fpow x d * tv d)) (pcB pc))
                                         (vsmul (rr * (if Nat.eqb d op then 0 else fpow x d * bv d)) (pcB_blinding pc)))).
    2:{ intros d Hd. rewrite (nth_map_seq (fun d => if Nat.eqb d op then v0 else pc_commit pc (tv d) (bv d))) by exact Hd.
        destruct (Nat.eqb d op); unfold pc_commit; cbn [msm]; vring. }
    rewrite gsum_add, !gsum_smul_r, !fsum_scale. vring.
  Qed.

  Lemma delta_fsum (wr wl : list F) yi n N : length wr = n -> length wl = n -> (n <= N)%nat ->
    ip (firstn n (zipw fmul wr (exp_iter yi N) ++ repeat 0 (N - n))) wl = ip (zipw fmul wr (exp_iter yi n)) wl.
  Proof.
    intros H1 H2 Hn. f_equal. rewrite firstn_app, zipw_length, exp_iter_length, H1. replace (n - Nat.min n N)%nat with O by lia. cbn [firstn]. rewrite app_nil_r.
    apply (list_ext_nth _ _ 0); rewrite ?firstn_length, ?zipw_length, ?exp_iter_length; [lia|]. intros i Hi.
    rewrite nth_firstn. destruct (Nat.ltb_spec i n); [|lia]. rewrite !nth_zipw_mul, !nth_exp_iter by lia. reflexivity.
  Qed.

  Lemma gates_zero s y : gates_inv s -> let n := length (p_aL s) in
    ip (p_aL s) (zipw fmul (p_aR s) (exp_iter y n)) - ip (p_aO s) (exp_iter y n) = 0.
  Proof.
    intros (H1 & H2 & H3 & _) n. cbn [Nat.add] in H3. rewrite !(ip_fsum _ _ n) by (fold n in H1, H2; rewrite ?zipw_length, ?exp_iter_length; lia).
    rewrite <- fsum_sub. apply fsum_zero. intros i Hi. rewrite nth_zipw_mul, H3, nth_exp_iter by exact Hi. ring.
  Qed.

  Lemma split_msm (c1 c2 c3 c4 c5 c6 gs hs : list F) (cB cb : F) (p1 p2 p3 p4 p5 p6 G H : list V) (B Bb : V) :
    length c1 = length p1 -> length c2 = length p2 -> length c3 = length p3 -> length c4 = length p4 ->
    length c5 = length p5 -> length c6 = length p6 -> length gs = length G ->
    msm ((c1 ++ c2 ++ c3 ++ c4 ++ c5 ++ c6) ++ (cB :: cb :: gs ++ hs)) ((p1 ++ p2 ++ p3 ++ p4 ++ p5 ++ p6) ++ [B; Bb] ++ G ++ H) =
    vadd (vadd (vadd (vadd (vadd (vadd (vadd (msm c1 p1) (msm c2 p2)) (msm c3 p3)) (msm c4 p4)) (vadd (msm c5 p5) (msm c6 p6)))
      (vadd (vsmul cB B) (vsmul cb Bb))) (msm gs G)) (msm hs H).
  Proof.
    intros. rewrite <- !app_assoc. rewrite !msm_app by assumption. cbn [app msm]. rewrite msm_app by assumption. vring.
  Qed.

  (** The multi-exponentiation of the verifier, on a proof made by the prover's
      algorithm, is [-(r x^op D) B], where [D] is the random combination of the
      values the prover's assignment gives to the constraints. *)
  Theorem run_equation dbg rnd s pf trf s2 tr1 tr3 y z u x w try_ trz trT tru trx trw fl l r tp lx rx Gr Hr t :
    run dbg rnd s pf trf s2 tr1 tr3 y z u x w try_ trz trT tru trx trw fl l r tp lx rx Gr Hr ->
    agree pc g s t -> gates_inv s ->
    (gens_capacity g <= length Gr)%nat -> (gens_capacity g <= length Hr)%nat ->
    Forall (fun P => P <> v0) (validated_points (op_degree_of (length (p_vec s))) pf) ->
    (length (ipp_L (pipp pf)) < 32)%nat ->
    exists t2, r1cs_challenges E pf t = Some (t2, y, z, x) /\ agree pc g s2 t2 /\ gates_inv s2 /\
      forall rr, exists vt, v_scalars_and_points E dbg rr pf t = Some (Ok vt) /\
        length (vt_points vt) = length (vt_scalars vt) /\
        length (vt_fixed vt) = (2 + 2 * next_power_of_two (p_size s2))%nat /\
        msm (vt_scalars vt ++ vt_fixed vt)
            (vt_points vt ++ [pcB pc; pcB_blinding pc] ++ firstn (next_power_of_two (p_size s2)) Gr ++ firstn (next_power_of_two (p_size s2)) Hr)
        = vsmul (- (rr * fpow x (op_degree_of (length (p_vec s))) * batched_constraints (p_asg s2) z (p_cs s2))) (pcB pc).
  Proof.
    intros R Ha Hi HGr HHr Hnz H32.
    destruct (run_facts _ _ _ _ _ _ _ _ _ _ _ _ _ _ _ _ _ _ _ _ _ _ _ _ _ _ _ t R Ha Hi)
      as (t2 & Ht2 & Ha2 & Hi2 & HlaL & Hn1 & Hpv & Hpvb & Hvec & FL & FR & FO & Hvl & Hvs & Hvn & Hvs0).
    pose proof R as R'.
    destruct R' as [RG RH Rc1 RAI1 RAO1 RS1 Rtr1 Rs2 Rc2 Rph RAI2 RAO2 RS2 Rtr3 Ry Rz Rfl Ry0 Rpo RT RTs Ru Rx Rtx Rtxb Rlx Rrx Reb Rw Ripp].
    destruct (p_v_flatten _ _ _ _ _ _ Ha2 Rfl) as (flx & Hflx & Hsame0).
    destruct (v_flatten_shape _ _ _ Hflx) as (WL & WR & WO & WV & WVC). rewrite Hvn in WL, WR, WO.
    assert (HwVC : map (@length F) (wVC fl) = map (@length F) (map snd (p_vec s2))).
    { destruct Hsame0 as (_ & _ & _ & _ & E5). rewrite E5, WVC, (ag_vec _ _ _ _ Ha2), !map_map. reflexivity. }
    destruct (build_polys_spec (length (p_vec s)) (p_size s2) y (finv y) (p_aL s2) (p_aR s2) (p_aO s2)
       (map (r_sL1 rnd) (seq 0 (p_size s)) ++ map (r_sL2 rnd) (seq 0 (p_size s2 - p_size s)))
       (map (r_sR1 rnd) (seq 0 (p_size s)) ++ map (r_sR2 rnd) (seq 0 (p_size s2 - p_size s))) fl (map snd (p_vec s2)))
      as (l0 & r0 & tp0 & B1 & B2 & B3 & B4).
    { rewrite map_length, Hvec. reflexivity. } { exact HwVC. }
    { rewrite Forall_map, Hvec. eapply Forall_impl; [|exact Hvl]. intros bv Hb. cbv beta in Hb |- *. lia. }
    rewrite Rpo in B1. apply Some_inj in B1. assert (l0 = l /\ r0 = r /\ tp0 = tp) as (-> & -> & ->) by (repeat split; congruence). clear B1.
    destruct (verify_run _ _ _ _ _ _ _ _ _ _ _ _ _ _ _ _ _ _ _ _ _ _ _ _ _ _ _ t R Ha Hi B2 Hnz H32)
      as (t2' & fl' & us & C1 & C2 & C3 & C4 & C5 & C6 & C7 & C8 & C9).
    rewrite Ht2 in C1. assert (t2' = t2) by congruence. subst t2'. clear C1.
    assert (flx = fl') by congruence. subst flx. clear Hflx Hsame0.
    exists t2. split; [exact C2|]. split; [exact Ha2|]. split; [exact Hi2|]. intros rr.
    eexists. split; [apply C9|]. clear C9 C2.
    set (op := op_degree_of (length (p_vec s))) in *. set (n := p_size s2) in *. set (n1 := p_size s) in *.
    set (N := next_power_of_two n) in *. assert (HnN : (n <= N)%nat) by apply next_power_of_two_ge.
    assert (Hop2 : (2 <= op)%nat) by (unfold op; rewrite op_degree_even; lia).
    unfold run_tuple. fold N. cbn [vt_points vt_scalars vt_fixed].
    set (ov := skipn 2 (op_splits op)) in *. set (mid := (op / 2)%nat) in *.
    set (ufs := repeat 1 n1 ++ repeat u (n - n1 + (N - n))) in *.
    set (yw := zipw fmul (wR fl') (exp_iter (finv y) N) ++ repeat 0 (N - n)).
    set (ds := filter (fun d => negb (Nat.eqb d op)) (seq 0 (2 * (op + 1) + 1))).
    assert (Lufs : length ufs = N) by (unfold ufs; rewrite app_length, !repeat_length; lia).
    assert (Lyw : length yw = N) by (unfold yw; rewrite app_length, zipw_length, repeat_length, exp_iter_length, WR; lia).
    assert (Lsv : length (svec us) = N) by (rewrite svec_length; congruence).
    assert (Hnc : length (v_vec t2) = length (p_vec s)) by (rewrite (ag_vec _ _ _ _ Ha2), map_length, Hvec; reflexivity).
    assert (Hov : (length (p_vec s) <= length ov)%nat).
    { unfold ov. rewrite skipn_length, op_splits_length by exact Hop2. pose proof (op_degree_ge (length (p_vec s))). fold op in H. lia. }
    assert (LxL : length (map (fun o : nat * nat => fpow x (fst o)) (firstn (length (v_vec t2)) ov)) = length (v_vec t2)).
    { rewrite map_length, firstn_length. lia. }
    assert (LV : length (v_V t2) = length (wV fl')) by (symmetry; exact WV).
    set (gsc := zipw _ (combine yw ufs) (svec us)). set (hsc := map _ (seq 0 N)).
    assert (Lg : length gsc = N) by (unfold gsc; rewrite zipw_length, combine_length; lia).
    assert (Lh : length hsc = N) by (unfold hsc; rewrite map_length, seq_length; reflexivity).
    split. { repeat (rewrite app_length || rewrite map_length). cbn [length]. rewrite firstn_length. lia. }
    split. { cbn [length]. rewrite app_length. lia. }
    destruct (B3 x) as (lx0 & rx0 & D1 & D2 & D3 & D4 & D5 & D6 & D7).
    assert (lx0 = lx) by congruence. assert (rx0 = rx) by congruence. subst lx0 rx0. clear D1 D2.
    destruct C4 as (W1 & W2 & W3 & W4 & W5). rewrite <- W1, <- W2, <- W3, <- W4, <- W5 in *|-.
    rewrite W1, W2, W3, W4, W5 in *.
    set (B := pcB pc) in *. set (Bb := pcB_blinding pc) in *.
    set (sL := map (r_sL1 rnd) (seq 0 n1) ++ map (r_sL2 rnd) (seq 0 (n - n1))) in *.
    set (sR := map (r_sR1 rnd) (seq 0 n1) ++ map (r_sR2 rnd) (seq 0 (n - n1))) in *.
    set (ph := (0 <? n - n1)%nat) in *.
    assert (LsL : length sL = n) by (unfold sL; rewrite app_length, !map_length, !seq_length; lia).
    assert (LsR : length sR = n) by (unfold sR; rewrite app_length, !map_length, !seq_length; lia).
    pose proof Hi2 as (LR2 & LO2 & Hgate & _). pose proof HlaL as LL2. rewrite LL2 in LR2, LO2.
    assert (FsL : firstn n1 sL = map (r_sL1 rnd) (seq 0 n1)) by (unfold sL; rewrite firstn_app, firstn_all2 by (rewrite map_length, seq_length; lia); rewrite map_length, seq_length, Nat.sub_diag; apply app_nil_r).
    assert (FsR : firstn n1 sR = map (r_sR1 rnd) (seq 0 n1)) by (unfold sR; rewrite firstn_app, firstn_all2 by (rewrite map_length, seq_length; lia); rewrite map_length, seq_length, Nat.sub_diag; apply app_nil_r).
    assert (SsL : skipn n1 sL = map (r_sL2 rnd) (seq 0 (n - n1))) by (unfold sL; rewrite skipn_app, skipn_all2 by (rewrite map_length, seq_length; lia); rewrite map_length, seq_length, Nat.sub_diag; reflexivity).
    assert (SsR : skipn n1 sR = map (r_sR2 rnd) (seq 0 (n - n1))) by (unfold sR; rewrite skipn_app, skipn_all2 by (rewrite map_length, seq_length; lia); rewrite map_length, seq_length, Nat.sub_diag; reflexivity).
    assert (HnG : (n <= length Gr)%nat) by lia. assert (HnH : (n <= length Hr)%nat) by lia.
    assert (HAI : vadd (A_I1 pf) (vsmul u (A_I2 pf)) = vadd (vadd (vsmul (r_i1 rnd + u * (if ph then r_i2 rnd else 0)) Bb)
       (gsum n (fun i => vsmul (gf n1 u i * nth i (p_aL s2) 0) (nth i Gr v0)))) (gsum n (fun i => vsmul (gf n1 u i * nth i (p_aR s2) 0) (nth i Hr v0)))).
    { rewrite RAI1, RAI2, <- FL, <- FR. apply commit_I_phases; auto. }
    assert (HAO : vadd (A_O1 pf) (vsmul u (A_O2 pf)) = vadd (vsmul (r_o1 rnd + u * (if ph then r_o2 rnd else 0)) Bb)
       (gsum n (fun i => vsmul (gf n1 u i * nth i (p_aO s2) 0) (nth i Gr v0)))).
    { rewrite RAO1, RAO2, <- FO. apply commit_O_phases; auto. }
    assert (HS : vadd (S1 pf) (vsmul u (S2 pf)) = vadd (vadd (vsmul (r_s1 rnd + u * (if ph then r_s2 rnd else 0)) Bb)
       (gsum n (fun i => vsmul (gf n1 u i * nth i sL 0) (nth i Gr v0)))) (gsum n (fun i => vsmul (gf n1 u i * nth i sR 0) (nth i Hr v0)))).
    { rewrite RS1, RS2, <- FsL, <- FsR, <- SsL, <- SsR. apply commit_I_phases; auto. }
    pose proof (veccoms_sum pc Gr ov (p_vec s) x u n1 n Hn1 Hvl) as HVC.
    assert (HGr0 : nth 0 (G_vec g) [] = Gr) by (apply nth_error_nth with (1 := RG)).
    assert (HVCp : map (fun bv => vadd (vsmul (fst bv) Bb) (msm (snd bv) Gr)) (p_vec s) = map fst (v_vec t2)).
    { rewrite (ag_vec _ _ _ _ Ha2), Hvec, map_map. apply map_ext. intros bv. cbn [fst]. unfold vec_commitment. rewrite HGr0. reflexivity. }
    fold Bb in HVC. rewrite HVCp in HVC. rewrite <- (map_firstn_zipw (fun o => fpow x (fst o)) ov (p_vec s) _ eq_refl), <- Hnc in HVC.
    set (M := (2 * (op + 1) + 1)%nat) in *. assert (HopM : (op < M)%nat) by (unfold M; lia).
    rewrite B2 in RT, Rtxb. replace (M - 1 + 1)%nat with M in RT, Rtxb by lia.
    pose proof (T_sum op M rr x (pT pf) _ _ HopM RT) as HT. cbv zeta in HT. fold ds in HT. fold B Bb in HT.
    assert (Htxall : poly_eval tp x = except op M (fun d => fpow x d * nth d tp 0) + fpow x op * nth op tp 0).
    { rewrite poly_eval_peval, (peval_fsum _ _ M) by lia. rewrite <- (except_spec op M (fun d => fpow x d * nth d tp 0) HopM).
      apply fsum_ext. intros d _. ring. }
    set (tb := map (fun d => if Nat.eqb d op then 0 else r_t rnd d) (seq 0 M)) in *.
    assert (Ltb : length tb = M) by (unfold tb; rewrite map_length, seq_length; reflexivity).
    assert (Htxb : pt_x_blinding pf = except op M (fun d => fpow x d * nth d tb 0) + fpow x op * ip (wV fl') (p_vb s2)).
    { rewrite Rtxb, poly_eval_peval, (peval_fsum _ _ M) by (rewrite upd_length; lia).
      rewrite (except_spec op M _ HopM), nth_upd_eq by lia. unfold except. f_equal; [|ring]. apply fsum_ext. intros d _.
      destruct (Nat.eqb_spec d op) as [|Hd]; [reflexivity|]. rewrite nth_upd_neq by congruence. ring. }
    assert (Hcons : ip (wL fl') (p_aL s2) + ip (wR fl') (p_aR s2) + ip (wO fl') (p_aO s2) + vsum (zipw ip (wVC fl') (map snd (p_vec s2)))
        - ip (wV fl') (p_v s2) - wc fl' = batched_constraints (p_asg s2) z (p_cs s2)).
    { rewrite (ag_cs _ _ _ _ Ha2). rewrite <- (v_flatten_value _ _ _ (p_asg s2) C3 eq_refl). unfold flat_value.
      destruct (wires_eq s2 Hi2) as (E1 & E2 & E3). rewrite WL, WR, WO, WV. fold n in LL2. rewrite <- LL2.
      rewrite E1, E2, E3. rewrite (ag_V _ _ _ _ Ha2), zipw_length, <- (ag_vb _ _ _ _ Ha2), Nat.min_id, wires_committed.
      rewrite vc_value_spec; [reflexivity|]. rewrite HwVC, map_map. reflexivity. }
    pose proof (t2_value_spec n y (p_aL s2) (p_aR s2) (p_aO s2) fl' (map snd (p_vec s2)) Ry0 LL2 LR2 LO2 WL WR WO) as Ht2v.
    rewrite Ht2v in B4. unfold t2_value in B4. pose proof (gates_zero s2 y Hi2) as Hg0. cbv zeta in Hg0. rewrite LL2 in Hg0.
    pose proof (delta_fsum (wR fl') (wL fl') (finv y) n N WR WL HnN) as Hdelta. fold yw in Hdelta.
    rewrite split_msm.
    2:{ rewrite LxL, map_length. reflexivity. } 2:{ reflexivity. } 2:{ rewrite map_length. symmetry. exact LV. }
    2:{ rewrite !map_length. reflexivity. } 2:{ rewrite map_length. exact C5. } 2:{ rewrite map_length. congruence. }
    2:{ rewrite firstn_length. lia. }
    fold B Bb.
    assert (HVs : msm (map (fun c => c * (rr * fpow x op)) (wV fl')) (v_V t2)
        = vsmul (rr * fpow x op) (vadd (vsmul (ip (wV fl') (p_v s2)) B) (vsmul (ip (wV fl') (p_vb s2)) Bb))).
    { rewrite (ag_V _ _ _ _ Ha2). unfold B, Bb. rewrite <- msm_pedersen by exact (ag_vb _ _ _ _ Ha2). rewrite <- msm_scale. f_equal. unfold vscale. apply map_ext. intros c. ring. }
    pose proof (mega_algebra pc Gr Hr N n n1 mid op u x y w rr (ipp_a (pipp pf)) (ipp_b (pipp pf)) (pt_x pf) (pt_x_blinding pf) (pe_blinding pf)
       (wc fl') (ip (firstn n yw) (wL fl')) (lx ++ repeat 0 (N - n)) (rx ++ map (fun i => - nth i (exp_iter y N) 0) (seq n (N - n))) yw ufs
       (fun i => nth i (p_aL s2) 0) (fun i => nth i (p_aR s2) 0) (fun i => nth i (p_aO s2) 0) (fun i => nth i sL 0) (fun i => nth i sR 0)
       (fun i => nth i (wL fl') 0) (fun i => nth i (wO fl') 0) (fun i => slots_sum fst ov (map snd (p_vec s)) x i) (fun i => slots_sum snd ov (wVC fl') x i)
       (msm (map (fun o : nat * nat => fpow x (fst o)) (firstn (length (v_vec t2)) ov)) (map fst (v_vec t2)))
       (msm (map (fun c => c * (rr * fpow x op)) (wV fl')) (v_V t2))
       (msm (map (fun d => rr * fpow x d) ds) (map (fun d => nth d (pT pf) v0) ds))
       (r_i1 rnd + u * (if ph then r_i2 rnd else 0)) (r_o1 rnd + u * (if ph then r_o2 rnd else 0)) (r_s1 rnd + u * (if ph then r_s2 rnd else 0))
       (vsum (zipw (fun (o : nat * nat) (bv : F * list F) => fpow x (fst o) * fst bv) ov (p_vec s)))
       (ip (wV fl') (p_v s2)) (ip (wV fl') (p_vb s2))
       (except op M (fun d => fpow x d * nth d tp 0)) (except op M (fun d => fpow x d * nth d tb 0)) (A_I1 pf) (A_O1 pf) (S1 pf) (A_I2 pf) (A_O2 pf) (S2 pf)
       (vadd (msm (map (fun c => c * c) us) (ipp_L (pipp pf))) (msm (map (fun c => inv_or_zero c * inv_or_zero c) us) (ipp_R (pipp pf)))) (svec us)
       HnN Lufs ltac:(lia) ltac:(lia) Ry0 ltac:(rewrite app_length, repeat_length; lia) ltac:(rewrite app_length, map_length, seq_length; lia) Lyw Lsv) as MA.
    specialize (MA ltac:(intros i Hlt; unfold ufs; apply nth_us; lia) HAI HAO HS HVC).
    assert (Hyw : forall i, (i < n)%nat -> nth i yw 0 = fpow (finv y) i * nth i (wR fl') 0).
    { intros i Hlt. unfold yw. rewrite nth_app0, zipw_length, exp_iter_length, WR. destruct (Nat.ltb_spec i (Nat.min n N)); [|lia].
      rewrite nth_zipw_mul, nth_exp_iter by lia. ring. }
    assert (Hyw0 : forall i, (n <= i < N)%nat -> nth i yw 0 = 0).
    { intros i Hlt. unfold yw. rewrite nth_app0, zipw_length, exp_iter_length, WR. destruct (Nat.ltb_spec i (Nat.min n N)); [lia|].
      apply nth_repeat. }
    specialize (MA ltac:(rewrite Reb, Hvec; apply e_blinding_spec)).
    specialize (MA ltac:(intros i Hlt; rewrite app_nth1 by lia; rewrite (D6 i Hlt), (Hyw i Hlt), Hvec; reflexivity)).
    specialize (MA ltac:(intros i Hlt; split; [rewrite app_nth2 by lia; apply nth_repeat|apply Hyw0; exact Hlt])).
    specialize (MA ltac:(intros i Hlt; rewrite app_nth1 by lia; rewrite (D7 i Hlt); reflexivity)).
    assert (Hslots0 : forall i, (n <= i)%nat -> slots_sum snd ov (wVC fl') x i = 0).
    { intros i Hge. unfold slots_sum. rewrite (vsum_fsum _ (length (zipw (fun (o : nat * nat) (row : list F) => fpow x (snd o) * nth i row 0) ov (wVC fl')))) by lia.
      apply fsum_zero. intros j Hj. rewrite zipw_length in Hj.
      rewrite (nth_zipw (fun (o : nat * nat) (row : list F) => fpow x (snd o) * nth i row 0) ov (wVC fl') j (0, 0)%nat [] 0) by lia. rewrite (nth_overflow (nth j (wVC fl') [])); [ring|].
      assert (Hrow : In (nth j (wVC fl') []) (wVC fl')) by (apply nth_In; lia). apply (in_map (@length F)) in Hrow. rewrite HwVC, Hvec, map_map in Hrow.
      apply in_map_iff in Hrow as (bv & Hbv & Hin). rewrite Forall_forall in Hvl. specialize (Hvl bv Hin). lia. }
    specialize (MA ltac:(intros i Hlt; split; [|split; [|split]];
       [rewrite app_nth2 by lia; rewrite D4; rewrite (nth_map_in (fun i0 => - nth i0 (exp_iter y N) 0) _ _ 0%nat) by (rewrite seq_length; lia);
        rewrite seq_nth by lia; replace (n + (i - n))%nat with i by lia; rewrite nth_exp_iter by lia; reflexivity
       |apply nth_overflow; lia|apply nth_overflow; lia|apply Hslots0; lia])).
    specialize (MA ltac:(rewrite Rtx, D5, ip_app by congruence; change (repeat 0 (N - n)) with (zeros (F:=F) (N - n)); rewrite ip_zeros_l; ring)).
    specialize (MA HVs HT Htxb).
    assert (Hexp : ipp_statement (vsmul w B) ufs (zipw fmul (exp_iter (finv y) N) ufs)
       (firstn N Gr) (firstn N Hr) (lx ++ repeat 0 (N - n))
       (rx ++ map (fun i : nat => - nth i (exp_iter y N) 0) (seq n (N - n))) = 
       vsub (vadd (vadd (vsmul (ipp_a (pipp pf) * ipp_b (pipp pf)) (vsmul w B)) (vsmul (ipp_a (pipp pf)) (msm (svec us) (scaled ufs (firstn N Gr)))))
         (vsmul (ipp_b (pipp pf)) (msm (rev (svec us)) (scaled (zipw fmul (exp_iter (finv y) N) ufs) (firstn N Hr)))))
         (vadd (msm (map (fun c => c * c) us) (ipp_L (pipp pf))) (msm (map (fun c => inv_or_zero c * inv_or_zero c) us) (ipp_R (pipp pf))))).
    { rewrite C8. unfold expected. vring. }
    specialize (MA Hexp). etransitivity; [exact MA|]. f_equal.
    rewrite Rtx, Htxall, Hdelta, B4, <- Hcons.
    transitivity (- (rr * fpow x op * (ip (wL fl') (p_aL s2) + ip (wR fl') (p_aR s2) + ip (wO fl') (p_aO s2) +
        vsum (zipw ip (wVC fl') (map snd (p_vec s2))) - ip (wV fl') (p_v s2) - wc fl')
        + rr * fpow x op * (ip (p_aL s2) (zipw fmul (p_aR s2) (exp_iter y n)) - ip (p_aO s2) (exp_iter y n)))); [ring|].
    rewrite Hg0. ring.
  Qed.
End Core.
