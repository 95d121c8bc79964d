(** * The prover's randomness hides the witness (one-phase circuits) *)
From Verif Require Import R1CSSpec UtilProofs CSProofs Lockstep FlatProofs CSMore R1CSPoly R1CSAlg R1CSProofs R1CSCore R1CSMain IPPSpec IPPProofs.
Local Open Scope F_scope.

Section WI.
  Context {F : Field} {V : VSpace F}.
  Add Field FFwi : (f_th F).
  Variable E : TrEnv V.
  Variable pc : PedersenGens V.
  Variable g : BPGens V.
  Implicit Types (s : PState F) (t : VState V).
  Let Bb := pcB_blinding pc.

  (** The right-hand side of the verifier's first equation. *)
  Definition pub_t (op n : nat) (y x tx : F) (T : list V) (fl : Flat F) (Vs : list V) : V :=
    let ds := filter (fun d => negb (Nat.eqb d op)) (seq 0 (2 * (op + 1) + 1)) in
    vadd (vadd (msm (map (fun d => 1 * fpow x d) ds) (map (fun d => nth d T v0) ds))
               (vsmul (fpow x op) (msm (wV fl) Vs)))
         (vsmul (fpow x op * (wc fl + ip (zipw fmul (wR fl) (exp_iter (finv y) n)) (wL fl)) - tx) (pcB pc)).
  (** The right-hand side of the verifier's second equation. *)
  Definition pub_e (op n : nat) (y x : F) (ai ao sp : V) (vcs : list V) (fl : Flat F) (lx rx : list F) (Gr Hr : list V) : V :=
    let ov := skipn 2 (op_splits op) in
    vsub (vadd (vadd (vadd (vsmul (fpow x (op / 2)) ai) (vsmul (fpow x op) ao)) (vsmul (fpow x (op + 1)) sp))
               (msm (map (fun o => fpow x (fst o)) (firstn (length vcs) ov)) vcs))
      (vadd (gsum n (fun i => vsmul (nth i lx 0 - fpow x (op / 2) * (fpow (finv y) i * nth i (wR fl) 0)) (nth i Gr v0)))
            (gsum n (fun i => vsmul (fpow (finv y) i * (nth i rx 0 - fpow x (op / 2) * nth i (wL fl) 0 - (nth i (wO fl) 0 - fpow y i)
                                      - slots_sum snd ov (wVC fl) x i)) (nth i Hr v0)))).

  Lemma one_phase_state s tr s2 : p_def s = [] -> p_create_randomized E (p_set_tr (padded s) tr) = Some (Ok s2) ->
    s2 = p_set_tr (p_set_pend (padded s) None) (r1cs_1phase_domain_sep tr).
  Proof. intros Hd H. rewrite (one_phase E _ _ Hd) in H. congruence. Qed.

  Lemma ep_algebra (Gr Hr : list V) (n mid op : nat) (x y : F) (lx rx : list F)
      (aL aR aO sL sR wRi wLi wOi slL slR : nat -> F) (ib ob sb vcb eb : F) (AI AO SP VC : V) : y <> 0 ->
    AI = vadd (vadd (vsmul ib Bb) (gsum n (fun i => vsmul (aL i) (nth i Gr v0)))) (gsum n (fun i => vsmul (aR i) (nth i Hr v0))) ->
    AO = vadd (vsmul ob Bb) (gsum n (fun i => vsmul (aO i) (nth i Gr v0))) ->
    SP = vadd (vadd (vsmul sb Bb) (gsum n (fun i => vsmul (sL i) (nth i Gr v0)))) (gsum n (fun i => vsmul (sR i) (nth i Hr v0))) ->
    VC = vadd (vsmul vcb Bb) (gsum n (fun i => vsmul (slL i) (nth i Gr v0))) ->
    eb = fpow x mid * ib + fpow x op * ob + fpow x (op + 1) * sb + vcb ->
    (forall i, (i < n)%nat -> nth i lx 0 = fpow x mid * (aL i + fpow (finv y) i * wRi i) + fpow x op * aO i + fpow x (op + 1) * sL i + slL i) ->
    (forall i, (i < n)%nat -> nth i rx 0 = fpow x mid * (fpow y i * aR i + wLi i) + (wOi i - fpow y i) + fpow x (op + 1) * (fpow y i * sR i) + slR i) ->
    vsmul eb Bb =
    vsub (vadd (vadd (vadd (vsmul (fpow x mid) AI) (vsmul (fpow x op) AO)) (vsmul (fpow x (op + 1)) SP)) VC)
      (vadd (gsum n (fun i => vsmul (nth i lx 0 - fpow x mid * (fpow (finv y) i * wRi i)) (nth i Gr v0)))
            (gsum n (fun i => vsmul (fpow (finv y) i * (nth i rx 0 - fpow x mid * wLi i - (wOi i - fpow y i) - slR i)) (nth i Hr v0)))).
  Proof.
    intros Hy -> -> -> -> -> Hl Hr'.
    rewrite (gsum_ext n (fun i => vsmul (nth i lx 0 - fpow x mid * (fpow (finv y) i * wRi i)) (nth i Gr v0))
      (fun i => vadd (vadd (vadd (vsmul (fpow x mid) (vsmul (aL i) (nth i Gr v0))) (vsmul (fpow x op) (vsmul (aO i) (nth i Gr v0))))
                     (vsmul (fpow x (op + 1)) (vsmul (sL i) (nth i Gr v0)))) (vsmul (slL i) (nth i Gr v0)))).
    2:{ intros i Hi. rewrite (Hl i Hi). vring. }
    rewrite (gsum_ext n (fun i => vsmul (fpow (finv y) i * (nth i rx 0 - fpow x mid * wLi i - (wOi i - fpow y i) - slR i)) (nth i Hr v0))
      (fun i => vadd (vsmul (fpow x mid) (vsmul (aR i) (nth i Hr v0))) (vsmul (fpow x (op + 1)) (vsmul (sR i) (nth i Hr v0))))).
    2:{ intros i Hi. rewrite (Hr' i Hi). assert (H1 : fpow (finv y) i * fpow y i = 1) by (rewrite <- fpow_mul_l; rewrite finv_l by exact Hy; apply fpow_1_l).
        transitivity (vsmul ((fpow (finv y) i * fpow y i) * (fpow x mid * aR i + fpow x (op + 1) * sR i)) (nth i Hr v0)); [vring|rewrite H1; vring]. }
    rewrite !gsum_add, !gsum_smul. vring.
  Qed.

  (** What a run of the prover satisfies, in terms of the verifier's view. *)
  Lemma pre_public rnd s t s2 tr1 y z x fl l r tp lx rx Gr Hr (AI AO SP : V) (T : list V) (tx txb eb : F) :
    let op := op_degree_of (length (p_vec s)) in
    let n := p_size s in
    nth_error (G_vec g) 0 = Some Gr -> (n <= gens_capacity g)%nat ->
    AI = commit_I pc (r_i1 rnd) (p_aL (padded s)) (p_aR (padded s)) (firstn n Gr) (firstn n Hr) ->
    AO = commit_O pc (r_o1 rnd) (p_aO (padded s)) (firstn n Gr) ->
    SP = commit_I pc (r_s1 rnd) (map (r_sL1 rnd) (seq 0 n)) (map (r_sR1 rnd) (seq 0 n)) (firstn n Gr) (firstn n Hr) ->
    p_create_randomized E (p_set_tr (padded s) tr1) = Some (Ok s2) -> p_flatten s2 z = Some fl -> y <> 0 ->
    build_polys op (op_splits op) n y (finv y) (p_aL s2) (p_aR s2) (p_aO s2) (map (r_sL1 rnd) (seq 0 n)) (map (r_sR1 rnd) (seq 0 n)) fl (map snd (p_vec s2)) = Some (l, r, tp) ->
    T = map (fun d => if Nat.eqb d op then v0 else pc_commit pc (nth d tp 0)
               (nth d (map (fun d => if Nat.eqb d op then 0 else r_t rnd d) (seq 0 (length tp - 1 + 1))) 0)) (seq 0 (length tp - 1 + 1)) ->
    tx = poly_eval tp x ->
    txb = poly_eval (upd (map (fun d => if Nat.eqb d op then 0 else r_t rnd d) (seq 0 (length tp - 1 + 1))) op (fun _ => ip (wV fl) (p_vb s2))) x ->
    vp_eval l x = Some lx -> vp_eval r x = Some rx ->
    eb = eval_terms (e_terms op (op_splits op) (r_i1 rnd) (r_o1 rnd) (r_s1 rnd) (p_vec s2)) 1 x ->
    agree pc g s t -> gates_inv s -> p_def s = [] ->
    (gens_capacity g <= length Gr)%nat -> (gens_capacity g <= length Hr)%nat ->
    batched_constraints (p_asg s2) z (p_cs s2) = 0 ->
    exists t2 flx, v_create_randomized E (v_set_tr (v_pad (v_size t) t) tr1) = Some (Ok t2) /\ agree pc g s2 t2 /\
      v_flatten t2 z = Some flx /\ same_w fl flx /\ p_size s2 = p_size s /\ p_vec s2 = p_vec s /\
      length tp = (2 * (op + 1) + 1)%nat /\ length lx = p_size s /\ length rx = p_size s /\ tx = ip lx rx /\
      (forall i, (i < p_size s)%nat -> nth i lx 0 =
         fpow x (op / 2) * (nth i (p_aL (padded s)) 0 + fpow (finv y) i * nth i (wR fl) 0) + fpow x op * nth i (p_aO (padded s)) 0
            + fpow x (op + 1) * r_sL1 rnd i + slots_sum fst (skipn 2 (op_splits op)) (map snd (p_vec s)) x i) /\
      (forall i, (i < p_size s)%nat -> nth i rx 0 =
         fpow x (op / 2) * (fpow y i * nth i (p_aR (padded s)) 0 + nth i (wL fl) 0) + (nth i (wO fl) 0 - fpow y i)
            + fpow x (op + 1) * (fpow y i * r_sR1 rnd i) + slots_sum snd (skipn 2 (op_splits op)) (wVC fl) x i) /\
      vsmul txb Bb = pub_t op (p_size s) y x tx T flx (v_V t2) /\
      vsmul eb Bb = pub_e op (p_size s) y x AI AO SP (map fst (v_vec t2)) flx lx rx Gr Hr.
  Proof.
    intros op n RG Rc1 RAI1 RAO1 RS1 Rs2 Rfl Ry0 Rpo RT Rtx Rtxb Rlx Rrx Reb Ha Hi Hdef HGr HHr HD. subst n.
    pose proof (padded_inv _ Hi) as Hi0. pose proof (padded_length s) as Hl0. pose proof (padded_size s) as Hz0.
    assert (Hi1 : gates_inv (p_set_tr (padded s) tr1)) by exact Hi0.
    destruct (lockstep_create_randomized _ _ _ _ _ _ Hi1 (set_tr_agree pc g _ _ tr1 (pad_agree pc g _ _ Ha)) Rs2) as (t2 & Ht2 & Ha2).
    destruct (p_create_randomized_inv _ _ _ Hi1 Rs2) as [Hi2 _].
    assert (Hvl : Forall (fun bv => (length (snd bv) <= p_size s)%nat) (p_vec s)) by apply vmax_all.
    pose proof (one_phase_state _ _ _ Hdef Rs2) as Es2.
    assert (Hn : p_size s2 = p_size s) by (rewrite Es2; exact (padded_size s)).
    assert (HaL : p_aL s2 = p_aL (padded s)) by (rewrite Es2; reflexivity).
    assert (HaR : p_aR s2 = p_aR (padded s)) by (rewrite Es2; reflexivity).
    assert (HaO : p_aO s2 = p_aO (padded s)) by (rewrite Es2; reflexivity).
    assert (Hvec : p_vec s2 = p_vec s) by (rewrite Es2; reflexivity).
    assert (HlaL : length (p_aL s2) = p_size s) by (rewrite HaL; exact Hl0).
    assert (Hvn : v_num t2 = p_size s) by (rewrite <- (ag_num _ _ _ _ Ha2); exact HlaL).
    destruct (p_v_flatten _ _ _ _ _ _ Ha2 Rfl) as (flx & Hflx & Hsame0). exists t2, flx.
    destruct (v_flatten_shape _ _ _ Hflx) as (WL & WR & WO & WV & WVC). rewrite Hvn in WL, WR, WO.
    assert (HwVC : map (@length F) (wVC fl) = map (@length F) (map snd (p_vec s2))).
    { destruct Hsame0 as (_ & _ & _ & _ & E5). rewrite E5, WVC, (ag_vec _ _ _ _ Ha2), !map_map. reflexivity. }
    destruct (build_polys_spec (length (p_vec s)) (p_size s) y (finv y) (p_aL s2) (p_aR s2) (p_aO s2)
       (map (r_sL1 rnd) (seq 0 (p_size s))) (map (r_sR1 rnd) (seq 0 (p_size s))) fl (map snd (p_vec s2)))
      as (l0 & r0 & tp0 & B1 & B2 & B3 & B4).
    { rewrite map_length, Hvec. reflexivity. } { exact HwVC. }
    { rewrite Forall_map, Hvec. eapply Forall_impl; [|exact Hvl]. intros bv Hb. cbv beta in Hb |- *. lia. }
    unfold op in Rpo. rewrite Rpo in B1. apply Some_inj in B1. assert (l0 = l /\ r0 = r /\ tp0 = tp) as (-> & -> & ->) by (repeat split; congruence). clear B1.
    destruct (B3 x) as (lx0 & rx0 & D1 & D2 & D3 & D4 & D5 & D6 & D7).
    assert (lx0 = lx) by congruence. assert (rx0 = rx) by congruence. subst lx0 rx0. clear D1 D2 B3.
    fold op in B2, B4, D6, D7.
    rewrite HaL, HaR, HaO, ?Hvec in *.
    assert (HsL : forall i, (i < p_size s)%nat -> nth i (map (r_sL1 rnd) (seq 0 (p_size s))) 0 = r_sL1 rnd i) by (intros i Hlt; apply (nth_map_seq (r_sL1 rnd)); exact Hlt).
    assert (HsR : forall i, (i < p_size s)%nat -> nth i (map (r_sR1 rnd) (seq 0 (p_size s))) 0 = r_sR1 rnd i) by (intros i Hlt; apply (nth_map_seq (r_sR1 rnd)); exact Hlt).
    assert (Ql : forall i, (i < p_size s)%nat -> nth i lx 0 =
         fpow x (op / 2) * (nth i (p_aL (padded s)) 0 + fpow (finv y) i * nth i (wR fl) 0) + fpow x op * nth i (p_aO (padded s)) 0
            + fpow x (op + 1) * r_sL1 rnd i + slots_sum fst (skipn 2 (op_splits op)) (map snd (p_vec s)) x i).
    { intros i Hlt. rewrite (D6 i Hlt), (HsL i Hlt). reflexivity. }
    assert (Qr : forall i, (i < p_size s)%nat -> nth i rx 0 =
         fpow x (op / 2) * (fpow y i * nth i (p_aR (padded s)) 0 + nth i (wL fl) 0) + (nth i (wO fl) 0 - fpow y i)
            + fpow x (op + 1) * (fpow y i * r_sR1 rnd i) + slots_sum snd (skipn 2 (op_splits op)) (wVC fl) x i).
    { intros i Hlt. rewrite (D7 i Hlt), (HsR i Hlt). reflexivity. }
    repeat (split; [first [assumption | reflexivity | congruence]|]).
    assert (Hop2 : (2 <= op)%nat) by (unfold op; rewrite op_degree_even; lia).
    pose proof Hi2 as (LR2 & LO2 & Hgate & _). rewrite HaL, HaR, HaO, ?HlaL in *.
    set (n := p_size s) in *. destruct Hsame0 as (W1 & W2 & W3 & W4 & W5).
    split.
    - set (M := (2 * (op + 1) + 1)%nat) in *. assert (HopM : (op < M)%nat) by (unfold M; lia).
      rewrite B2 in RT, Rtxb. replace (M - 1 + 1)%nat with M in RT, Rtxb by lia.
      pose proof (T_sum pc op M 1 x T _ _ HopM RT) as HT. cbv zeta in HT.
      assert (Htxall : tx = except op M (fun d => fpow x d * nth d tp 0) + fpow x op * nth op tp 0).
      { rewrite Rtx, poly_eval_peval, (peval_fsum _ _ M) by lia. rewrite <- (except_spec op M (fun d => fpow x d * nth d tp 0) HopM).
        apply fsum_ext. intros d _. ring. }
      set (tb := map (fun d => if Nat.eqb d op then 0 else r_t rnd d) (seq 0 M)) in *.
      assert (Ltb : length tb = M) by (unfold tb; rewrite map_length, seq_length; reflexivity).
      assert (Htxb : txb = except op M (fun d => fpow x d * nth d tb 0) + fpow x op * ip (wV fl) (p_vb s2)).
      { rewrite Rtxb, poly_eval_peval, (peval_fsum _ _ M) by (rewrite upd_length; lia).
        rewrite (except_spec op M _ HopM), nth_upd_eq by lia. unfold except. f_equal; [|ring]. apply fsum_ext. intros d _.
        destruct (Nat.eqb_spec d op) as [|Hd]; [reflexivity|]. rewrite nth_upd_neq by congruence. ring. }
      assert (Hcons : ip (wL flx) (p_aL s2) + ip (wR flx) (p_aR s2) + ip (wO flx) (p_aO s2) + vsum (zipw ip (wVC flx) (map snd (p_vec s2)))
          - ip (wV flx) (p_v s2) - wc flx = batched_constraints (p_asg s2) z (p_cs s2)).
      { rewrite (ag_cs _ _ _ _ Ha2). rewrite <- (v_flatten_value _ _ _ (p_asg s2) Hflx eq_refl). unfold flat_value.
        destruct (wires_eq s2 Hi2) as (E1 & E2 & E3). rewrite WL, WR, WO, WV. rewrite HaL, HlaL in E1, E2, E3.
        rewrite E1, E2, E3. rewrite (ag_V _ _ _ _ Ha2), zipw_length, <- (ag_vb _ _ _ _ Ha2), Nat.min_id, wires_committed.
        rewrite vc_value_spec; [rewrite HaL; reflexivity|]. rewrite <- W5, HwVC, Hvec, map_map. reflexivity. }
      rewrite HD, HaL, HaR, HaO, Hvec in Hcons.
      pose proof (t2_value_spec n y (p_aL (padded s)) (p_aR (padded s)) (p_aO (padded s)) fl (map snd (p_vec s)) Ry0 HlaL LR2 LO2) as Ht2v.
      rewrite W1, W2, W3, W5 in Ht2v. specialize (Ht2v WL WR WO). rewrite W1, W2, W3, W5 in B4. rewrite Ht2v in B4. unfold t2_value in B4. rewrite W1, W2, W3, W5 in B4.
      pose proof (gates_zero s2 y Hi2) as Hg0. cbv zeta in Hg0. rewrite HaL, HaR, HaO, HlaL in Hg0.
      unfold pub_t. cbv zeta. fold M. rewrite HT. unfold Bb.
      assert (HV : msm (wV flx) (v_V t2) = vadd (vsmul (ip (wV flx) (p_v s2)) (pcB pc)) (vsmul (ip (wV flx) (p_vb s2)) (pcB_blinding pc))).
      { rewrite (ag_V _ _ _ _ Ha2). apply msm_pedersen. exact (ag_vb _ _ _ _ Ha2). }
      rewrite HV, Htxb, W4, Htxall, B4.
      set (dl := ip (zipw fmul (wR flx) (exp_iter (finv y) n)) (wL flx)) in *.
      match type of Hcons with ?a + ?b + ?c + ?d - ?e - ?f = 0 => set (c1 := a) in *; set (c2 := b) in *; set (c3 := c) in *; set (c4 := d) in *; set (c5 := e) in *; set (c6 := f) in * end.
      match type of Hg0 with ?a - ?b = 0 => set (g1 := a) in *; set (g2 := b) in * end.
      assert (Hz : c1 + c2 + c3 + c4 + g1 - g2 + dl = c5 + c6 + dl).
      { transitivity ((c1 + c2 + c3 + c4 - c5 - c6) + (g1 - g2) + (c5 + c6 + dl)); [ring|]. rewrite Hcons, Hg0. ring. }
      rewrite Hz. vring.
    - unfold pub_e. cbv zeta. rewrite map_length.
      set (ov := skipn 2 (op_splits op)) in *.
      assert (Hnc : length (v_vec t2) = length (p_vec s)) by (rewrite (ag_vec _ _ _ _ Ha2), map_length, Hvec; reflexivity).
      pose proof (veccoms_sum pc Gr ov (p_vec s) x 1 n n (Nat.le_refl n) Hvl) as HVC.
      assert (HGr0 : nth 0 (G_vec g) [] = Gr) by (apply nth_error_nth with (1 := RG)).
      assert (HVCp : map (fun bv => vadd (vsmul (fst bv) Bb) (msm (snd bv) Gr)) (p_vec s) = map fst (v_vec t2)).
      { rewrite (ag_vec _ _ _ _ Ha2), Hvec, map_map. apply map_ext. intros bv. cbn [fst]. unfold vec_commitment. rewrite HGr0. reflexivity. }
      fold Bb in HVC. rewrite HVCp in HVC. rewrite <- (map_firstn_zipw (fun o => fpow x (fst o)) ov (p_vec s) _ eq_refl), <- Hnc in HVC.
      rewrite (gsum_ext n _ (fun i => vsmul (slots_sum fst ov (map snd (p_vec s)) x i) (nth i Gr v0))) in HVC.
      2:{ intros i Hlt. unfold gf. destruct (Nat.ltb_spec i n); [vring|lia]. }
      pose proof (commit_I_phases pc Gr Hr false (r_i1 rnd) 0 (p_aL (padded s)) (p_aR (padded s)) n n 1 HlaL LR2 (Nat.le_refl n) ltac:(lia) ltac:(rewrite Nat.sub_diag; reflexivity)) as HAI.
      pose proof (commit_O_phases pc Gr false (r_o1 rnd) 0 (p_aO (padded s)) n n 1 LO2 (Nat.le_refl n) ltac:(rewrite Nat.sub_diag; reflexivity)) as HAO.
      pose proof (commit_I_phases pc Gr Hr false (r_s1 rnd) 0 (map (r_sL1 rnd) (seq 0 n)) (map (r_sR1 rnd) (seq 0 n)) n n 1 ltac:(apply map_seq_len) ltac:(apply map_seq_len) (Nat.le_refl n) ltac:(lia) ltac:(rewrite Nat.sub_diag; reflexivity)) as HSP.
      cbv beta zeta in HAI, HAO, HSP. fold Bb in HAI, HAO, HSP.
      assert (HgfG : forall (a : nat -> F) (P : list V), gsum n (fun i => vsmul (gf n 1 i * a i) (nth i P v0)) = gsum n (fun i => vsmul (a i) (nth i P v0))).
      { intros a P. apply gsum_ext. intros i Hlt. unfold gf. destruct (Nat.ltb_spec i n); [vring|lia]. }
      rewrite (HgfG _ Gr), (HgfG _ Hr) in HAI. rewrite (HgfG _ Gr) in HAO. rewrite (HgfG _ Gr), (HgfG _ Hr) in HSP.
      assert (Hph : forall (P Q : V) (b : F) (Y Z : V), vadd P (vsmul 1 v0) = vadd (vadd (vsmul (b + 1 * 0) Bb) Y) Z -> P = vadd (vadd (vsmul b Bb) Y) Z).
      { intros P Q b Y Z Heq. transitivity (vadd P (vsmul 1 v0)); [vring|]. rewrite Heq. vring. }
      apply (Hph _ v0) in HAI. apply (Hph _ v0) in HSP.
      assert (HAO' : commit_O pc (r_o1 rnd) (firstn n (p_aO (padded s))) (firstn n Gr) = vadd (vsmul (r_o1 rnd) Bb) (gsum n (fun i => vsmul (nth i (p_aO (padded s)) 0) (nth i Gr v0)))).
      { transitivity (vadd (commit_O pc (r_o1 rnd) (firstn n (p_aO (padded s))) (firstn n Gr)) (vsmul 1 v0)); [vring|]. rewrite HAO. vring. }
      assert (Lpad : length (p_aL (padded s)) = n) by exact HlaL.
      rewrite (firstn_all2 (p_aL (padded s))), (firstn_all2 (p_aR (padded s))) in HAI by lia. rewrite (firstn_all2 (p_aO (padded s))) in HAO' by lia.
      rewrite (firstn_all2 (map (r_sL1 rnd) (seq 0 n))), (firstn_all2 (map (r_sR1 rnd) (seq 0 n))) in HSP by (rewrite map_seq_len; lia).
      rewrite <- RAI1 in HAI. rewrite <- RAO1 in HAO'. rewrite <- RS1 in HSP.
      rewrite (gsum_ext n (fun i => vsmul (nth i (map (r_sL1 rnd) (seq 0 n)) 0) (nth i Gr v0)) (fun i => vsmul (r_sL1 rnd i) (nth i Gr v0))) in HSP by (intros i Hlt; rewrite (HsL i Hlt); reflexivity).
      rewrite (gsum_ext n (fun i => vsmul (nth i (map (r_sR1 rnd) (seq 0 n)) 0) (nth i Hr v0)) (fun i => vsmul (r_sR1 rnd i) (nth i Hr v0))) in HSP by (intros i Hlt; rewrite (HsR i Hlt); reflexivity).
      refine (ep_algebra Gr Hr n (op / 2) op x y lx rx (fun i => nth i (p_aL (padded s)) 0) (fun i => nth i (p_aR (padded s)) 0) (fun i => nth i (p_aO (padded s)) 0)
        (r_sL1 rnd) (r_sR1 rnd) (fun i => nth i (wR flx) 0) (fun i => nth i (wL flx) 0) (fun i => nth i (wO flx) 0) _ (fun i => slots_sum snd ov (wVC flx) x i)
        (r_i1 rnd) (r_o1 rnd) (r_s1 rnd) _ _ _ _ _ _ Ry0 HAI HAO' HSP HVC _ _ _).
      + rewrite Reb. pose proof (e_blinding_spec (length (p_vec s)) (r_i1 rnd) (r_o1 rnd) (r_s1 rnd) (p_vec s) x) as He. cbv zeta in He. fold op ov in He.
        rewrite He. ring.
      + intros i Hlt. rewrite (Ql i Hlt), W2. reflexivity.
      + intros i Hlt. rewrite (Qr i Hlt), W1, W3, W5. reflexivity.
  Qed.

  Lemma run_public dbg rnd s pf trf s2 tr1 tr3 y z u x w try_ trz trT tru trx trw fl l r tp lx rx Gr Hr t :
    run E pc g dbg rnd s pf trf s2 tr1 tr3 y z u x w try_ trz trT tru trx trw fl l r tp lx rx Gr Hr ->
    agree pc g s t -> gates_inv s -> p_def s = [] ->
    (gens_capacity g <= length Gr)%nat -> (gens_capacity g <= length Hr)%nat ->
    batched_constraints (p_asg s2) z (p_cs s2) = 0 ->
    let op := op_degree_of (length (p_vec s)) in
    exists t2 flx, v_create_randomized E (v_set_tr (v_pad (v_size t) t) tr1) = Some (Ok t2) /\ agree pc g s2 t2 /\
      v_flatten t2 z = Some flx /\ same_w fl flx /\ p_size s2 = p_size s /\ p_vec s2 = p_vec s /\
      length tp = (2 * (op + 1) + 1)%nat /\ length lx = p_size s /\ length rx = p_size s /\ pt_x pf = ip lx rx /\
      (forall i, (i < p_size s)%nat -> nth i lx 0 =
         fpow x (op / 2) * (nth i (p_aL (padded s)) 0 + fpow (finv y) i * nth i (wR fl) 0) + fpow x op * nth i (p_aO (padded s)) 0
            + fpow x (op + 1) * r_sL1 rnd i + slots_sum fst (skipn 2 (op_splits op)) (map snd (p_vec s)) x i) /\
      (forall i, (i < p_size s)%nat -> nth i rx 0 =
         fpow x (op / 2) * (fpow y i * nth i (p_aR (padded s)) 0 + nth i (wL fl) 0) + (nth i (wO fl) 0 - fpow y i)
            + fpow x (op + 1) * (fpow y i * r_sR1 rnd i) + slots_sum snd (skipn 2 (op_splits op)) (wVC fl) x i) /\
      vsmul (pt_x_blinding pf) Bb = pub_t op (p_size s) y x (pt_x pf) (pT pf) flx (v_V t2) /\
      vsmul (pe_blinding pf) Bb = pub_e op (p_size s) y x (A_I1 pf) (A_O1 pf) (S1 pf) (map fst (v_vec t2)) flx lx rx Gr Hr.
  Proof.
    intros R Ha Hi Hdef HGr HHr HD op.
    destruct R as [RG RH Rc1 RAI1 RAO1 RS1 Rtr1 Rs2 Rc2 Rph RAI2 RAO2 RS2 Rtr3 Ry Rz Rfl Ry0 Rpo RT RTs Ru Rx Rtx Rtxb Rlx Rrx Reb Rw Ripp].
    assert (Hn : p_size s2 = p_size s) by (rewrite (one_phase_state _ _ _ Hdef Rs2); exact (padded_size s)).
    rewrite Hn, Nat.sub_diag in Rpo, Reb. cbn [seq map Nat.ltb Nat.leb] in Rpo, Reb. rewrite !app_nil_r in Rpo.
    refine (pre_public rnd s t s2 tr1 y z x fl l r tp lx rx Gr Hr _ _ _ _ _ _ _ RG Rc1 RAI1 RAO1 RS1 Rs2 Rfl Ry0 Rpo RT Rtx Rtxb Rlx Rrx _ Ha Hi Hdef HGr HHr HD).
    rewrite Reb. f_equal. f_equal; ring.
  Qed.

  Lemma prove_of_run dbg rnd s pf trf s2 tr1 tr3 y z u x w try_ trz trT tru trx trw fl l r tp lx rx Gr Hr :
    run E pc g dbg rnd s pf trf s2 tr1 tr3 y z u x w try_ trz trT tru trx trw fl l r tp lx rx Gr Hr ->
    nth (op_degree_of (length (p_vec s))) tp 0 = t2_value (p_size s2) y (finv y) (p_aL s2) (p_aR s2) (p_aO s2) fl (map snd (p_vec s2)) ->
    r1cs_prove E dbg rnd pc g s = Some (Ok (pf, trf)).
  Proof.
    intros [RG RH Rc1 RAI1 RAO1 RS1 Rtr1 Rs2 Rc2 Rph RAI2 RAO2 RS2 Rtr3 Ry Rz Rfl Ry0 Rpo RT RTs Ru Rx Rtx Rtxb Rlx Rrx Reb Rw Ripp] Ht2.
    unfold r1cs_prove. rewrite p_pad_eq. set (s0 := padded s) in *.
    set (tr0 := append_u64 (p_tr s0) "m" (N.of_nat (length (p_v s0)))).
    change (p_size (p_set_tr s0 tr0)) with (p_size s0).
    change (p_aL (p_set_tr s0 tr0)) with (p_aL s0). change (p_aR (p_set_tr s0 tr0)) with (p_aR s0).
    change (p_aO (p_set_tr s0 tr0)) with (p_aO s0). change (p_tr (p_set_tr s0 tr0)) with tr0.
    change (p_vec s0) with (p_vec s).
    assert (Hs0 : p_size s0 = p_size s) by apply padded_size. rewrite Hs0.
    destruct (Nat.ltb_spec (gens_capacity g) (p_size s)) as [|_]; [lia|].
    unfold share_G, share_H. rewrite RG, RH. cbn [option_map opt_bind].
    rewrite <- RAI1, <- RAO1, <- RS1. change tr0 with (append_u64 (p_tr s) "m" (N.of_nat (length (p_v s)))). rewrite <- Rtr1.
    match goal with |- context [p_create_randomized E ?a] => change a with (p_set_tr s0 tr1) end.
    rewrite Rs2. cbn [res_bind].
    destruct (Nat.ltb_spec (gens_capacity g) (next_power_of_two (p_size s2))) as [|_]; [lia|].
    assert (Hph : (negb (0 <? p_size s2 - p_size s)%nat || match p_vec s2 with [] => true | _ => false end)%bool = true).
    { destruct Rph as [-> | ->]; [reflexivity|apply orb_true_r]. }
    rewrite Hph. cbn [guard].
    assert (HI2 : (if (0 <? p_size s2 - p_size s)%nat then
               commit_I pc (if (0 <? p_size s2 - p_size s)%nat then r_i2 rnd else 0) (skipn (p_size s) (p_aL s2)) (skipn (p_size s) (p_aR s2))
                 (skipn (p_size s) (firstn (p_size s2) Gr)) (skipn (p_size s) (firstn (p_size s2) Hr)) else v0) = A_I2 pf) by (rewrite RAI2; destruct (0 <? p_size s2 - p_size s)%nat; reflexivity).
    assert (HO2 : (if (0 <? p_size s2 - p_size s)%nat then
               commit_O pc (if (0 <? p_size s2 - p_size s)%nat then r_o2 rnd else 0) (skipn (p_size s) (p_aO s2)) (skipn (p_size s) (firstn (p_size s2) Gr)) else v0) = A_O2 pf) by (rewrite RAO2; destruct (0 <? p_size s2 - p_size s)%nat; reflexivity).
    assert (HS2 : (if (0 <? p_size s2 - p_size s)%nat then
               commit_I pc (if (0 <? p_size s2 - p_size s)%nat then r_s2 rnd else 0) (map (r_sL2 rnd) (seq 0 (p_size s2 - p_size s))) (map (r_sR2 rnd) (seq 0 (p_size s2 - p_size s)))
                 (skipn (p_size s) (firstn (p_size s2) Gr)) (skipn (p_size s) (firstn (p_size s2) Hr)) else v0) = S2 pf) by (rewrite RS2; destruct (0 <? p_size s2 - p_size s)%nat; reflexivity).
    rewrite HI2, HO2, HS2, <- Rtr3, Ry. cbn [opt_bind]. rewrite Rz. cbn [opt_bind]. rewrite Rfl. cbn [opt_bind].
    assert (Hfi : finv_opt y = Some (finv y)) by (unfold finv_opt; destruct (feqb_spec F y 0); [contradiction|reflexivity]).
    rewrite Hfi. cbn [opt_bind]. rewrite Rpo. cbn [opt_bind]. rewrite <- RT, RTs. cbn [opt_bind]. rewrite Ru. cbn [opt_bind]. rewrite Rx. cbn [opt_bind].
    rewrite Rlx. cbn [opt_bind]. rewrite Rrx. cbn [opt_bind]. rewrite Ht2.
    destruct (feqb_spec F (t2_value (p_size s2) y (finv y) (p_aL s2) (p_aR s2) (p_aO s2) fl (map snd (p_vec s2)))
       (t2_value (p_size s2) y (finv y) (p_aL s2) (p_aR s2) (p_aO s2) fl (map snd (p_vec s2)))) as [_|Hne]; [|congruence]. rewrite orb_true_r. cbn [guard].
    rewrite <- Rtx, <- Rtxb, <- Reb, Rw. cbn [opt_bind]. rewrite Ripp. cbn [opt_bind]. destruct pf; reflexivity.
  Qed.

  Lemma smul_inj (a b : F) (P : V) : P <> v0 -> vsmul a P = vsmul b P -> a = b.
  Proof.
    intros HP H. assert (H0 : vsmul (a - b) P = v0) by (transitivity (vsub (vsmul a P) (vsmul b P)); [vring|rewrite H; vring]).
    apply vsmul_eq_0 in H0 as [H0|H0]; [|contradiction]. transitivity ((a - b) + b); [ring|rewrite H0; ring].
  Qed.
  Lemma commit_I_blind b (aL aR : list F) (G H : list V) : commit_I pc b aL aR G H = vadd (vsmul b Bb) (commit_I pc 0 aL aR G H).
  Proof. unfold commit_I, Bb. cbn [msm]. vring. Qed.
  Lemma commit_O_blind b (aO : list F) (G : list V) : commit_O pc b aO G = vadd (vsmul b Bb) (commit_O pc 0 aO G).
  Proof. unfold commit_O, Bb. cbn [msm]. vring. Qed.
  Lemma pc_commit_blind v b : pc_commit pc v b = vadd (vsmul b Bb) (pc_commit pc v 0).
  Proof. unfold pc_commit, Bb. cbn [msm]. vring. Qed.
  Lemma vadd_cancel_r (P Q R : V) : vadd P R = vadd Q R -> P = Q.
  Proof. intros H. transitivity (vsub (vadd P R) R); [vring|]. rewrite H. vring. Qed.

  (** A prover's public shape is determined by the verifier it talks to. *)
  Lemma agree_shape s s' t : agree pc g s t -> agree pc g s' t ->
    p_size s = p_size s' /\ length (p_vec s) = length (p_vec s') /\ length (p_v s) = length (p_v s') /\ p_tr s = p_tr s' /\
    map (fun bv => length (snd bv)) (p_vec s) = map (fun bv => length (snd bv)) (p_vec s') /\
    forall z, p_flatten s z = p_flatten s' z.
  Proof.
    intros A A'. pose proof (v_size_agree _ _ _ _ A) as Z. pose proof (v_size_agree _ _ _ _ A') as Z'.
    assert (Hd : map (fun bv => length (snd bv)) (p_vec s) = map (fun bv => length (snd bv)) (p_vec s')).
    { assert (H : forall q, agree pc g q t -> map (fun bv => length (snd bv)) (p_vec q) = map snd (v_vec t)) by (intros q Aq; rewrite (ag_vec _ _ _ _ Aq), map_map; reflexivity).
      rewrite (H s A), (H s' A'). reflexivity. }
    assert (Hv : length (p_v s) = length (p_v s')).
    { assert (H : forall q, agree pc g q t -> length (v_V t) = length (p_v q)) by (intros q Aq; rewrite (ag_V _ _ _ _ Aq), zipw_length, <- (ag_vb _ _ _ _ Aq), Nat.min_id; reflexivity).
      rewrite <- (H s A), <- (H s' A'). reflexivity. }
    split; [congruence|]. split; [rewrite <- (map_length (fun bv => length (snd bv)) (p_vec s)), Hd, map_length; reflexivity|].
    split; [exact Hv|]. split; [rewrite (ag_tr _ _ _ _ A), (ag_tr _ _ _ _ A'); reflexivity|]. split; [exact Hd|].
    intros z. unfold p_flatten. rewrite (ag_cs _ _ _ _ A), (ag_cs _ _ _ _ A'), (ag_num _ _ _ _ A), (ag_num _ _ _ _ A'), Hv, Hd. reflexivity.
  Qed.

  Lemma one_phase_batched s tr s2 z : p_def s = [] -> p_satisfied s -> p_create_randomized E (p_set_tr (padded s) tr) = Some (Ok s2) ->
    batched_constraints (p_asg s2) z (p_cs s2) = 0.
  Proof.
    intros Hd Hs H. pose proof (one_phase_satisfied E s Hd Hs _ _ H) as Hsat.
    pose proof (batched_satisfied (p_asg s2) 0 (p_cs s2) 1 z Hsat) as Hb. unfold batched_gates in Hb. cbn [fsum] in Hb. etransitivity; [|exact Hb]. ring.
  Qed.

  Lemma twin_exists dbg rnd s s' pf trf s2 tr1 tr3 y z u x w try_ trz trT tru trx trw fl l r tp lx rx Gr Hr t :
    run E pc g dbg rnd s pf trf s2 tr1 tr3 y z u x w try_ trz trT tru trx trw fl l r tp lx rx Gr Hr ->
    agree pc g s t -> gates_inv s -> p_def s = [] -> p_satisfied s ->
    agree pc g s' t -> gates_inv s' -> p_def s' = [] -> p_satisfied s' ->
    (gens_capacity g <= length Gr)%nat -> (gens_capacity g <= length Hr)%nat ->
    (forall P : V, exists k, P = vsmul k Bb) -> Bb <> v0 -> x <> 0 ->
    exists rnd' s2' l' r' tp', run E pc g dbg rnd' s' pf trf s2' tr1 tr3 y z u x w try_ trz trT tru trx trw fl l' r' tp' lx rx Gr Hr /\
      nth (op_degree_of (length (p_vec s'))) tp' 0 = t2_value (p_size s2') y (finv y) (p_aL s2') (p_aR s2') (p_aO s2') fl (map snd (p_vec s2')).
  Proof.
    intros R Ha Hi Hd Hsat Ha' Hi' Hd' Hsat' HGr HHr Hspan HB Hx.
    assert (Hs2 : p_create_randomized E (p_set_tr (padded s) tr1) = Some (Ok s2)) by apply R.
    destruct (run_public _ _ _ _ _ _ _ _ _ _ _ _ _ _ _ _ _ _ _ _ _ _ _ _ _ _ _ t R Ha Hi Hd HGr HHr (one_phase_batched _ _ _ _ Hd Hsat Hs2))
      as (t2 & flx & Ht2 & Ha2 & Hfx & Hw & Hn & Hvec & Ltp & Llx & Lrx & Htx & Ql & Qr & Eq1 & Eq2).
    cbv zeta in *.
    destruct (agree_shape s s' t Ha Ha') as (Sz & Snc & Snv & Str & Sdim & _).
    set (s2' := p_set_tr (p_set_pend (padded s') None) (r1cs_1phase_domain_sep tr1)).
    assert (Hs2' : p_create_randomized E (p_set_tr (padded s') tr1) = Some (Ok s2')) by apply (one_phase E _ _ Hd').
    assert (Ha2' : agree pc g s2' t2).
    { assert (Hi1 : gates_inv (p_set_tr (padded s') tr1)) by exact (padded_inv _ Hi').
      destruct (lockstep_create_randomized _ _ _ _ _ _ Hi1 (set_tr_agree pc g _ _ tr1 (pad_agree pc g _ _ Ha')) Hs2') as (t2' & Ht2' & Ha2').
      assert (t2' = t2) by congruence. subst t2'. exact Ha2'. }
    destruct (agree_shape s2 s2' t2 Ha2 Ha2') as (Sz2 & Snc2 & Snv2 & Str2 & Sdim2 & Sfl2).
    destruct R as [RG RH Rc1 RAI1 RAO1 RS1 Rtr1 Rs2 Rc2 Rph RAI2 RAO2 RS2 Rtr3 Ry Rz Rfl Ry0 Rpo RT RTs Ru Rx Rtx Rtxb Rlx Rrx Reb Rw Ripp].
    set (op := op_degree_of (length (p_vec s))) in *. set (n := p_size s) in *.
    assert (Hn' : p_size s2' = n) by congruence.
    set (aL' := p_aL (padded s')). set (aR' := p_aR (padded s')). set (aO' := p_aO (padded s')).
    set (ov := skipn 2 (op_splits op)) in *.
    set (xi := finv (fpow x (op + 1))).
    assert (Hxi : xi * fpow x (op + 1) = 1) by (apply finv_l, fpow_neq_0, Hx).
    set (sL' := fun i => xi * (nth i lx 0 - (fpow x (op / 2) * (nth i aL' 0 + fpow (finv y) i * nth i (wR fl) 0) + fpow x op * nth i aO' 0 + slots_sum fst ov (map snd (p_vec s')) x i))).
    set (sR' := fun i => xi * (fpow (finv y) i * (nth i rx 0 - (fpow x (op / 2) * (fpow y i * nth i aR' 0 + nth i (wL fl) 0) + (nth i (wO fl) 0 - fpow y i) + slots_sum snd ov (wVC fl) x i)))).
    destruct (Hspan (vsub (A_I1 pf) (commit_I pc 0 aL' aR' (firstn n Gr) (firstn n Hr)))) as [i' Hki].
    destruct (Hspan (vsub (A_O1 pf) (commit_O pc 0 aO' (firstn n Gr)))) as [o' Hko].
    destruct (Hspan (vsub (S1 pf) (commit_I pc 0 (map sL' (seq 0 n)) (map sR' (seq 0 n)) (firstn n Gr) (firstn n Hr)))) as [b' Hks].
    assert (HwVC : map (@length F) (wVC fl) = map (@length F) (map snd (p_vec s2'))).
    { destruct (p_flatten_shape _ _ _ Rfl) as (_ & _ & _ & _ & WVC). rewrite WVC, Sdim2, map_map. reflexivity. }
    destruct (build_polys_spec (length (p_vec s)) n y (finv y) aL' aR' aO' (map sL' (seq 0 n) ++ map (fun _ => 0) (seq 0 0)) (map sR' (seq 0 n) ++ map (fun _ => 0) (seq 0 0)) fl (map snd (p_vec s2')))
      as (l' & r' & tp' & B1 & B2 & B3 & B4).
    { rewrite map_length. congruence. } { exact HwVC. }
    { apply Forall_map. change (p_vec s2') with (p_vec s'). rewrite Sz. apply vmax_all. }
    cbv zeta in *. fold op ov in B1, B2, B3, B4.
    destruct (B3 x) as (lx' & rx' & D1 & D2 & D3 & D4 & D5 & D6 & D7). clear B3. cbn [seq map] in D6, D7. rewrite !app_nil_r in D6, D7.
    assert (lx' = lx).
    { apply (list_ext_nth _ _ 0); [congruence|]. intros i Hlt. rewrite D3 in Hlt. rewrite (D6 i Hlt), (nth_map_seq sL') by exact Hlt. unfold sL'.
      change (map snd (p_vec s2')) with (map snd (p_vec s')).
      set (k := fpow x (op / 2) * (nth i aL' 0 + fpow (finv y) i * nth i (wR fl) 0)). set (k2 := fpow x op * nth i aO' 0). set (k3 := slots_sum fst ov _ x i).
      transitivity (k + k2 + (xi * fpow x (op + 1)) * (nth i lx 0 - (k + k2 + k3)) + k3); [ring|rewrite Hxi; ring]. }
    assert (rx' = rx).
    { apply (list_ext_nth _ _ 0); [congruence|]. intros i Hlt. rewrite D4 in Hlt. rewrite (D7 i Hlt), (nth_map_seq sR') by exact Hlt. unfold sR'.
      set (k := fpow x (op / 2) * (fpow y i * nth i aR' 0 + nth i (wL fl) 0)). set (k2 := nth i (wO fl) 0 - fpow y i). set (k3 := slots_sum snd ov _ x i).
      assert (H1 : fpow (finv y) i * fpow y i = 1) by (rewrite <- fpow_mul_l; rewrite finv_l by exact Ry0; apply fpow_1_l).
      transitivity (k + k2 + (xi * fpow x (op + 1)) * (fpow (finv y) i * fpow y i) * (nth i rx 0 - (k + k2 + k3)) + k3); [ring|rewrite Hxi, H1; ring]. }
    subst lx' rx'. clear D6 D7.
    set (M := (2 * (op + 1) + 1)%nat) in *.
    assert (Htau : forall m, exists tau : list F, length tau = m /\ forall d, (d < m)%nat -> vsub (nth d (pT pf) v0) (pc_commit pc (nth d tp' 0) 0) = vsmul (nth d tau 0) Bb).
    { induction m as [|m IHm]; [exists []; split; [reflexivity|lia]|]. destruct IHm as (tau & L & Hta).
      destruct (Hspan (vsub (nth m (pT pf) v0) (pc_commit pc (nth m tp' 0) 0))) as [k Hk]. exists (tau ++ [k]). split; [rewrite app_length; cbn [length]; lia|].
      intros d Hlt. destruct (Nat.eq_dec d m) as [->|Hne]; [rewrite app_nth2, L, Nat.sub_diag by lia; exact Hk|rewrite app_nth1 by lia; apply Hta; lia]. }
    destruct (Htau M) as (tau & _ & Hta). clear Htau.
    assert (HM : (length tp' - 1 + 1 = M)%nat) by lia. assert (HM0 : (length tp - 1 + 1 = M)%nat) by lia.
    set (rnd' := mkRand (F:=F) i' o' b' sL' sR' 0 0 0 (fun _ => 0) (fun _ => 0) (fun d => nth d tau 0)).
    exists rnd', s2', l', r', tp'.
    assert (Ht2' : nth op tp' 0 = t2_value n y (finv y) aL' aR' aO' fl (map snd (p_vec s2'))).
    { rewrite B4. destruct (p_flatten_shape _ _ _ Rfl) as (WL & WR & WO & _). 
      destruct (padded_inv _ Hi') as (LR & LO & _). assert (LL : length aL' = n) by (unfold aL'; rewrite padded_length; symmetry; exact Sz).
      assert (Ln : length (p_aL s2) = n).
      { rewrite (ag_num _ _ _ _ Ha2), <- (ag_num _ _ _ _ Ha2'). exact LL. }
      rewrite Ln in WL, WR, WO. fold aR' in LR. fold aO' in LO. fold aL' in LR, LO. rewrite LL in LR, LO. apply t2_value_spec; assumption. }
    assert (HT' : pT pf = map (fun d => if Nat.eqb d op then v0 else pc_commit pc (nth d tp' 0)
               (nth d (map (fun d => if Nat.eqb d op then 0 else r_t rnd' d) (seq 0 M)) 0)) (seq 0 M)).
    { rewrite HM0 in RT. apply (list_ext_nth _ _ v0); [rewrite RT, !map_length; reflexivity|]. intros d Hlt.
      assert (HdM : (d < M)%nat) by (rewrite RT, map_length, seq_length in Hlt; exact Hlt).
      rewrite (nth_map_seq (fun d => if Nat.eqb d op then v0 else pc_commit pc (nth d tp' 0) (nth d (map (fun d => if Nat.eqb d op then 0 else r_t rnd' d) (seq 0 M)) 0))) by exact HdM.
      rewrite (nth_map_seq (fun d => if Nat.eqb d op then 0 else r_t rnd' d)) by exact HdM.
      destruct (Nat.eqb_spec d op) as [->|Hne].
      - rewrite RT. rewrite (nth_map_seq (fun d => if Nat.eqb d op then v0 else _)) by exact HdM. rewrite Nat.eqb_refl. reflexivity.
      - rewrite pc_commit_blind. cbn [rnd' r_t]. rewrite <- (Hta d HdM). vring. }
    (* the scalars follow from the two equations *)
    pose (txb' := poly_eval (upd (map (fun d => if Nat.eqb d op then 0 else r_t rnd' d) (seq 0 (length tp' - 1 + 1))) op (fun _ => ip (wV fl) (p_vb s2'))) x).
    pose (eb' := eval_terms (e_terms op (op_splits op) (r_i1 rnd') (r_o1 rnd') (r_s1 rnd') (p_vec s2')) 1 x).
    assert (Hop' : op_degree_of (length (p_vec s')) = op) by (unfold op; rewrite Snc; reflexivity).
    assert (HAI' : A_I1 pf = commit_I pc (r_i1 rnd') aL' aR' (firstn n Gr) (firstn n Hr)).
    { rewrite commit_I_blind. cbn [rnd' r_i1]. rewrite <- Hki. vring. }
    assert (HAO' : A_O1 pf = commit_O pc (r_o1 rnd') aO' (firstn n Gr)).
    { rewrite commit_O_blind. cbn [rnd' r_o1]. rewrite <- Hko. vring. }
    assert (HSP' : S1 pf = commit_I pc (r_s1 rnd') (map (r_sL1 rnd') (seq 0 n)) (map (r_sR1 rnd') (seq 0 n)) (firstn n Gr) (firstn n Hr)).
    { rewrite commit_I_blind. cbn [rnd' r_s1 r_sL1 r_sR1]. rewrite <- Hks. vring. }
    cbn [seq map] in B1. rewrite !app_nil_r in B1.
    assert (Hfl' : p_flatten s2' z = Some fl) by (rewrite <- Sfl2; exact Rfl).
    pose proof (pre_public rnd' s' t s2' tr1 y z x fl l' r' tp' lx rx Gr Hr (A_I1 pf) (A_O1 pf) (S1 pf) (pT pf) (poly_eval tp' x) txb' eb') as P.
    cbv zeta in P. rewrite Hop', <- Sz in P. rewrite HM in P.
    destruct (P RG Rc1 HAI' HAO' HSP' Hs2' Hfl' Ry0 B1 HT' eq_refl) as (t2' & flx' & Ht2'' & _ & Hfx' & _ & _ & _ & _ & _ & _ & Htx' & _ & _ & Eq1' & Eq2'); try assumption; try reflexivity.
    { unfold txb'. rewrite HM. reflexivity. } { exact (one_phase_batched _ _ _ _ Hd' Hsat' Hs2'). }
    clear P. assert (t2' = t2) by congruence. subst t2'. assert (flx' = flx) by congruence. subst flx'.
    assert (Htx2 : poly_eval tp' x = pt_x pf) by congruence.
    rewrite Htx2, <- Eq1 in Eq1'. apply (smul_inj _ _ _ HB) in Eq1'. rewrite <- Eq2 in Eq2'. apply (smul_inj _ _ _ HB) in Eq2'.
    assert (HaL2 : p_aL s2' = aL') by reflexivity. assert (HaR2 : p_aR s2' = aR') by reflexivity. assert (HaO2 : p_aO s2' = aO') by reflexivity.
    rewrite Hop', Hn', HaL2, HaR2, HaO2. split; [|exact Ht2'].
    assert (Hz2 : p_size s2 = n) by congruence. rewrite Hz2, ?Nat.sub_diag in *. cbn [Nat.ltb Nat.leb] in *.
    constructor; rewrite ?Hop', <- ?Sz, ?Hn', ?HM, ?Nat.sub_diag; cbn [Nat.ltb Nat.leb seq map]; rewrite ?app_nil_r; try assumption; try (rewrite <- ?Str, <- ?Snv, <- ?Str2; assumption).
    - left. reflexivity.
    - rewrite HM0 in RTs. exact RTs.
    - symmetry. exact Htx2.
    - rewrite <- Eq1'. unfold txb'. rewrite HM. reflexivity.
    - rewrite <- Eq2'. unfold eb'. f_equal. f_equal; ring.
  Qed.

  Lemma same_tape_refl n op (a : PRand F) : same_tape n op a a.
  Proof. repeat split. Qed.
  Lemma same_tape_sym n op (a b : PRand F) : same_tape n op a b -> same_tape n op b a.
  Proof.
    intros (H1 & H2 & H3 & H4 & H5). repeat split; try (symmetry; assumption).
    - symmetry. apply (H4 i H).
    - symmetry. apply (H4 i H).
    - intros d Hd Ho. symmetry. apply (H5 d Hd Ho).
  Qed.

  (** Two tapes that agree where the prover reads give the same run. *)
  Lemma run_det dbg a a' s pf trf s2 tr1 tr3 y z u x w try_ trz trT tru trx trw fl l r tp lx rx Gr Hr
      pf' trf' s2' tr1' tr3' y' z' u' x' w' try_' trz' trT' tru' trx' trw' fl' l' r' tp' lx' rx' Gr' Hr' :
    run E pc g dbg a s pf trf s2 tr1 tr3 y z u x w try_ trz trT tru trx trw fl l r tp lx rx Gr Hr ->
    run E pc g dbg a' s pf' trf' s2' tr1' tr3' y' z' u' x' w' try_' trz' trT' tru' trx' trw' fl' l' r' tp' lx' rx' Gr' Hr' ->
    p_def s = [] -> length tp = (2 * (op_degree_of (length (p_vec s)) + 1) + 1)%nat ->
    same_tape (p_size s) (op_degree_of (length (p_vec s))) a a' ->
    pf = pf' /\ trf = trf' /\ tr1 = tr1' /\ y = y' /\ z = z' /\ x = x' /\ lx = lx' /\ rx = rx' /\ Gr = Gr' /\ Hr = Hr'.
  Proof.
    intros R R' Hd Ltp (T1 & T2 & T3 & T4 & T5).
    destruct R as [RG RH Rc1 RAI1 RAO1 RS1 Rtr1 Rs2 Rc2 Rph RAI2 RAO2 RS2 Rtr3 Ry Rz Rfl Ry0 Rpo RT RTs Ru Rx Rtx Rtxb Rlx Rrx Reb Rw Ripp].
    destruct R' as [RG' RH' Rc1' RAI1' RAO1' RS1' Rtr1' Rs2' Rc2' Rph' RAI2' RAO2' RS2' Rtr3' Ry' Rz' Rfl' Ry0' Rpo' RT' RTs' Ru' Rx' Rtx' Rtxb' Rlx' Rrx' Reb' Rw' Ripp'].
    assert (Hz : p_size s2 = p_size s) by (rewrite (one_phase_state _ _ _ Hd Rs2); exact (padded_size s)).
    assert (Hz' : p_size s2' = p_size s) by (rewrite (one_phase_state _ _ _ Hd Rs2'); exact (padded_size s)).
    rewrite Hz, ?Nat.sub_diag in *. rewrite Hz', ?Nat.sub_diag in *. cbn [Nat.ltb Nat.leb seq map] in *.
    assert (EG : Gr = Gr') by congruence. assert (EH : Hr = Hr') by congruence. subst Gr' Hr'.
    assert (EL : map (r_sL1 a) (seq 0 (p_size s)) = map (r_sL1 a') (seq 0 (p_size s))) by (apply map_ext_in; intros i Hin; apply in_seq in Hin; apply T4; lia).
    assert (ER : map (r_sR1 a) (seq 0 (p_size s)) = map (r_sR1 a') (seq 0 (p_size s))) by (apply map_ext_in; intros i Hin; apply in_seq in Hin; apply T4; lia).
    rewrite <- EL, <- ER, <- ?T1, <- ?T2, <- ?T3 in *.
    assert (EI : A_I1 pf = A_I1 pf') by congruence. assert (EO : A_O1 pf = A_O1 pf') by congruence. assert (ES : S1 pf = S1 pf') by congruence.
    assert (E1 : tr1 = tr1') by congruence. subst tr1'. assert (E2 : s2 = s2') by congruence. subst s2'.
    assert (E3 : tr3 = tr3') by congruence. subst tr3'.
    assert (y = y' /\ try_ = try_') as (<- & <-) by (split; congruence).
    assert (z = z' /\ trz = trz') as (<- & <-) by (split; congruence).
    assert (fl = fl') as <- by congruence.
    assert (l = l' /\ r = r' /\ tp = tp') as (<- & <- & <-) by (repeat split; congruence).
    set (op := op_degree_of (length (p_vec s))) in *.
    assert (Etb : map (fun d => if Nat.eqb d op then 0 else r_t a d) (seq 0 (length tp - 1 + 1)) = map (fun d => if Nat.eqb d op then 0 else r_t a' d) (seq 0 (length tp - 1 + 1))).
    { apply map_ext_in. intros d Hin. apply in_seq in Hin. destruct (Nat.eqb_spec d op); [reflexivity|]. apply T5; [lia|assumption]. }
    rewrite <- Etb in *.
    assert (ET : pT pf = pT pf') by congruence. rewrite <- ET in RTs'.
    assert (trT = trT') as <- by congruence.
    assert (u = u' /\ tru = tru') as (<- & <-) by (split; congruence).
    assert (x = x' /\ trx = trx') as (<- & <-) by (split; congruence).
    assert (lx = lx') as <- by congruence. assert (rx = rx') as <- by congruence.
    assert (Ex : pt_x pf = pt_x pf') by congruence. assert (Exb : pt_x_blinding pf = pt_x_blinding pf') by congruence. assert (Eb : pe_blinding pf = pe_blinding pf') by congruence.
    rewrite <- Ex, <- Exb, <- Eb in Rw'.
    assert (w = w' /\ trw = trw') as (<- & <-) by (split; congruence).
    assert (pipp pf = pipp pf' /\ trf = trf') as (Ep & <-) by (split; congruence).
    split; [|repeat split; exact E1]. destruct pf, pf'. cbn in *. congruence.
  Qed.

  (** The tape is determined by the proof and the folded vectors. *)
  Lemma run_tape dbg b b' s t pf trf tr1 y z x lx rx Gr Hr s2 tr3 u w try_ trz trT tru trx trw fl l r tp
      trf' s2' tr3' u' w' try_' trz' trT' tru' trx' trw' fl' l' r' tp' :
    run E pc g dbg b s pf trf s2 tr1 tr3 y z u x w try_ trz trT tru trx trw fl l r tp lx rx Gr Hr ->
    run E pc g dbg b' s pf trf' s2' tr1 tr3' y z u' x w' try_' trz' trT' tru' trx' trw' fl' l' r' tp' lx rx Gr Hr ->
    agree pc g s t -> gates_inv s -> p_def s = [] -> p_satisfied s ->
    (gens_capacity g <= length Gr)%nat -> (gens_capacity g <= length Hr)%nat -> Bb <> v0 -> x <> 0 ->
    same_tape (p_size s) (op_degree_of (length (p_vec s))) b b'.
  Proof.
    intros R R' Ha Hi Hd Hsat HGr HHr HB Hx.
    assert (Hs2 : p_create_randomized E (p_set_tr (padded s) tr1) = Some (Ok s2)) by apply R.
    assert (Hs2' : p_create_randomized E (p_set_tr (padded s) tr1) = Some (Ok s2')) by apply R'.
    assert (s2 = s2') by congruence. subst s2'.
    destruct (run_public _ _ _ _ _ _ _ _ _ _ _ _ _ _ _ _ _ _ _ _ _ _ _ _ _ _ _ t R Ha Hi Hd HGr HHr (one_phase_batched _ _ _ _ Hd Hsat Hs2))
      as (_ & _ & _ & _ & _ & _ & Hn & _ & Ltp & _ & _ & _ & Ql & Qr & _).
    destruct (run_public _ _ _ _ _ _ _ _ _ _ _ _ _ _ _ _ _ _ _ _ _ _ _ _ _ _ _ t R' Ha Hi Hd HGr HHr (one_phase_batched _ _ _ _ Hd Hsat Hs2))
      as (_ & _ & _ & _ & _ & _ & _ & _ & Ltp' & _ & _ & _ & Ql' & Qr' & _).
    cbv zeta in *. 
    destruct R as [RG RH Rc1 RAI1 RAO1 RS1 Rtr1 Rs2 Rc2 Rph RAI2 RAO2 RS2 Rtr3 Ry Rz Rfl Ry0 Rpo RT RTs Ru Rx Rtx Rtxb Rlx Rrx Reb Rw Ripp].
    destruct R' as [RG' RH' Rc1' RAI1' RAO1' RS1' Rtr1' Rs2' Rc2' Rph' RAI2' RAO2' RS2' Rtr3' Ry' Rz' Rfl' Ry0' Rpo' RT' RTs' Ru' Rx' Rtx' Rtxb' Rlx' Rrx' Reb' Rw' Ripp'].
    assert (fl' = fl) by congruence. subst fl'.
    set (op := op_degree_of (length (p_vec s))) in *. set (n := p_size s) in *.
    assert (Hxp : fpow x (op + 1) <> 0) by (apply fpow_neq_0, Hx).
    assert (Hcan : forall p q c d : F, fpow x (op + 1) * c = fpow x (op + 1) * d -> c = d).
    { intros _ _ c d H. assert (H0 : fpow x (op + 1) * (c - d) = 0) by (transitivity (fpow x (op + 1) * c - fpow x (op + 1) * d); [ring|rewrite H; ring]).
      apply fmul_eq_0 in H0 as [H0|H0]; [contradiction|]. transitivity ((c - d) + d); [ring|rewrite H0; ring]. }
    assert (TL : forall i, (i < n)%nat -> r_sL1 b i = r_sL1 b' i /\ r_sR1 b i = r_sR1 b' i).
    { intros i Hlt. split.
      - apply (Hcan 0 0). specialize (Ql i Hlt). rewrite (Ql' i Hlt) in Ql.
        match type of Ql with ?p + ?q + ?c + ?d = ?p + ?q + ?c' + ?d => transitivity ((p + q + c' + d) - p - q - d); [ring|]; transitivity ((p + q + c + d) - p - q - d); [|ring] end.
        rewrite Ql. ring.
      - assert (Hyi : fpow y i <> 0) by (apply fpow_neq_0, Ry0).
        assert (H : fpow y i * r_sR1 b i = fpow y i * r_sR1 b' i).
        { apply (Hcan 0 0). specialize (Qr i Hlt). rewrite (Qr' i Hlt) in Qr.
          match type of Qr with ?p + ?q + ?c + ?d = ?p + ?q + ?c' + ?d => transitivity ((p + q + c' + d) - p - q - d); [ring|]; transitivity ((p + q + c + d) - p - q - d); [|ring] end.
          rewrite Qr. ring. }
        assert (H0 : fpow y i * (r_sR1 b i - r_sR1 b' i) = 0) by (transitivity (fpow y i * r_sR1 b i - fpow y i * r_sR1 b' i); [ring|rewrite H; ring]).
        apply fmul_eq_0 in H0 as [H0|H0]; [contradiction|]. transitivity ((r_sR1 b i - r_sR1 b' i) + r_sR1 b' i); [ring|rewrite H0; ring]. }
    assert (EL : map (r_sL1 b) (seq 0 n) = map (r_sL1 b') (seq 0 n)) by (apply map_ext_in; intros i Hin; apply in_seq in Hin; apply TL; lia).
    assert (ER : map (r_sR1 b) (seq 0 n) = map (r_sR1 b') (seq 0 n)) by (apply map_ext_in; intros i Hin; apply in_seq in Hin; apply TL; lia).
    rewrite Hn, ?Nat.sub_diag in Rpo, Rpo'. cbn [seq map] in Rpo, Rpo'. rewrite <- EL, <- ER in Rpo'.
    assert (tp = tp') as <- by congruence.
    split; [|split; [|split; [|split; [exact TL|]]]].
    - rewrite RAI1, (commit_I_blind (r_i1 b)), (commit_I_blind (r_i1 b')) in RAI1'. apply vadd_cancel_r in RAI1'. exact (smul_inj _ _ _ HB RAI1').
    - rewrite RAO1, (commit_O_blind (r_o1 b)), (commit_O_blind (r_o1 b')) in RAO1'. apply vadd_cancel_r in RAO1'. exact (smul_inj _ _ _ HB RAO1').
    - rewrite RS1, (commit_I_blind (r_s1 b)), (commit_I_blind (r_s1 b')), <- EL, <- ER in RS1'. apply vadd_cancel_r in RS1'. exact (smul_inj _ _ _ HB RS1').
    - intros d Hdl Hne. assert (HM : (length tp - 1 + 1 = 2 * (op + 1) + 1)%nat) by lia. rewrite HM in RT, RT'.
      rewrite RT in RT'. assert (Hnth := f_equal (fun T => nth d T v0) RT'). cbv beta in Hnth.
      rewrite (nth_map_seq (fun d => if Nat.eqb d op then v0 else pc_commit pc (nth d tp 0) (nth d (map (fun d => if Nat.eqb d op then 0 else r_t b d) (seq 0 (2 * (op + 1) + 1))) 0))) in Hnth by lia.
      rewrite (nth_map_seq (fun d => if Nat.eqb d op then v0 else pc_commit pc (nth d tp 0) (nth d (map (fun d => if Nat.eqb d op then 0 else r_t b' d) (seq 0 (2 * (op + 1) + 1))) 0))) in Hnth by lia.
      rewrite (nth_map_seq (fun d => if Nat.eqb d op then 0 else r_t b d)), (nth_map_seq (fun d => if Nat.eqb d op then 0 else r_t b' d)) in Hnth by lia.
      destruct (Nat.eqb_spec d op); [contradiction|]. rewrite (pc_commit_blind _ (r_t b d)), (pc_commit_blind _ (r_t b' d)) in Hnth. apply vadd_cancel_r in Hnth. exact (smul_inj _ _ _ HB Hnth).
  Qed.

  Lemma run_challenges dbg rnd s pf trf s2 tr1 tr3 y z u x w try_ trz trT tru trx trw fl l r tp lx rx Gr Hr t :
    run E pc g dbg rnd s pf trf s2 tr1 tr3 y z u x w try_ trz trT tru trx trw fl l r tp lx rx Gr Hr ->
    agree pc g s t -> gates_inv s -> length tp = (2 * (op_degree_of (length (p_vec s)) + 1) + 1)%nat ->
    exists t2, r1cs_challenges E pf t = Some (t2, y, z, x).
  Proof.
    intros R Ha Hi Htp.
    destruct (run_facts _ _ _ _ _ _ _ _ _ _ _ _ _ _ _ _ _ _ _ _ _ _ _ _ _ _ _ _ _ _ t R Ha Hi) as (t2 & Ht2 & Ha2 & _).
    destruct R as [RG RH Rc1 RAI1 RAO1 RS1 Rtr1 Rs2 Rc2 Rph RAI2 RAO2 RS2 Rtr3 Ry Rz Rfl Ry0 Rpo RT RTs Ru Rx Rtx Rtxb Rlx Rrx Reb Rw Ripp].
    assert (Htl : (length tp - 1 + 1 = 2 * (op_degree_of (length (p_vec s)) + 1) + 1)%nat) by lia.
    rewrite Htl in *.
    assert (Htr0 : v_tr (v_pad (v_size t) t) = p_tr s).
    { pose proof (ag_tr _ _ _ _ (pad_agree pc g _ _ Ha)) as H. rewrite <- H. reflexivity. }
    assert (HV0 : length (v_V (v_pad (v_size t) t)) = length (p_v s)).
    { rewrite (ag_V _ _ _ _ (pad_agree pc g _ _ Ha)), zipw_length. cbn [padded p_v p_vb p_set_wires]. rewrite <- (ag_vb _ _ _ _ Ha). apply Nat.min_id. }
    assert (Hnc0 : length (v_vec (v_pad (v_size t) t)) = length (p_vec s)).
    { rewrite (ag_vec _ _ _ _ (pad_agree pc g _ _ Ha)), map_length. reflexivity. }
    exists t2. set (op := op_degree_of (length (p_vec s))) in *.
    unfold r1cs_challenges. rewrite Htr0, HV0, Hnc0. fold op. rewrite <- Rtr1, Ht2. rewrite <- (ag_tr _ _ _ _ Ha2), <- Rtr3.
    rewrite Ry. cbn [opt_bind]. rewrite Rz. cbn [opt_bind]. rewrite RTs. cbn [opt_bind].
    rewrite Ru. cbn [opt_bind]. rewrite Rx. cbn [opt_bind]. reflexivity.
  Qed.

  (** Two tapes for two witnesses that give one proof with one pair of folded vectors. *)
  Definition twins dbg s s' (a b : PRand F) : Prop :=
    exists pf trf s2 s2' tr1 tr3 y z u x w try_ trz trT tru trx trw fl l r tp l' r' tp' lx rx Gr Hr, x <> 0 /\
      run E pc g dbg a s pf trf s2 tr1 tr3 y z u x w try_ trz trT tru trx trw fl l r tp lx rx Gr Hr /\
      run E pc g dbg b s' pf trf s2' tr1 tr3 y z u x w try_ trz trT tru trx trw fl l' r' tp' lx rx Gr Hr /\
      r1cs_prove E dbg a pc g s = Some (Ok (pf, trf)) /\ r1cs_prove E dbg b pc g s' = Some (Ok (pf, trf)).

  Lemma twins_sym dbg s s' a b : twins dbg s s' a b -> twins dbg s' s b a.
  Proof.
    intros (pf & trf & s2 & s2' & tr1 & tr3 & y & z & u & x & w & try_ & trz & trT & tru & trx & trw & fl & l & r & tp & l' & r' & tp' & lx & rx & Gr & Hr & Hx & R & R' & P & P').
    exists pf, trf, s2', s2, tr1, tr3, y, z, u, x, w, try_, trz, trT, tru, trx, trw, fl, l', r', tp', l, r, tp, lx, rx, Gr, Hr. auto.
  Qed.

  Lemma twins_total dbg s s' t a pf trf t2 y z x :
    agree pc g s t -> gates_inv s -> p_def s = [] -> p_satisfied s ->
    agree pc g s' t -> gates_inv s' -> p_def s' = [] -> p_satisfied s' -> gens_wf g ->
    (forall P : V, exists k, P = vsmul k Bb) -> Bb <> v0 ->
    r1cs_prove E dbg a pc g s = Some (Ok (pf, trf)) -> r1cs_challenges E pf t = Some (t2, y, z, x) -> x <> 0 ->
    exists b, twins dbg s s' a b.
  Proof.
    intros Ha Hi Hd Hsat Ha' Hi' Hd' Hsat' (Gr0 & Hr0 & G0 & H0 & LG & LH) Hspan HB Hp Hch Hx.
    destruct (prove_run _ _ _ _ _ _ _ _ Hp) as (s2 & tr1 & tr3 & y1 & z1 & u & x1 & w & try_ & trz & trT & tru & trx & trw & fl & l & r & tp & lx & rx & Gr & Hr & R).
    assert (Gr0 = Gr) by (pose proof (rn_G _ _ _ _ _ _ _ _ _ _ _ _ _ _ _ _ _ _ _ _ _ _ _ _ _ _ _ _ _ _ R); congruence).
    assert (Hr0 = Hr) by (pose proof (rn_H _ _ _ _ _ _ _ _ _ _ _ _ _ _ _ _ _ _ _ _ _ _ _ _ _ _ _ _ _ _ R); congruence). subst Gr0 Hr0.
    assert (HGr : (gens_capacity g <= length Gr)%nat) by lia. assert (HHr : (gens_capacity g <= length Hr)%nat) by lia.
    assert (Hs2 : p_create_randomized E (p_set_tr (padded s) tr1) = Some (Ok s2)) by apply R.
    destruct (run_public _ _ _ _ _ _ _ _ _ _ _ _ _ _ _ _ _ _ _ _ _ _ _ _ _ _ _ t R Ha Hi Hd HGr HHr (one_phase_batched _ _ _ _ Hd Hsat Hs2))
      as (_ & _ & _ & _ & _ & _ & _ & _ & Ltp & _). cbv zeta in *.
    destruct (run_challenges _ _ _ _ _ _ _ _ _ _ _ _ _ _ _ _ _ _ _ _ _ _ _ _ _ _ _ t R Ha Hi Ltp) as (t2' & Hch').
    rewrite Hch in Hch'. injection Hch' as _ _ _ <-.
    destruct (twin_exists _ _ _ _ _ _ _ _ _ _ _ _ _ _ _ _ _ _ _ _ _ _ _ _ _ _ _ _ t R Ha Hi Hd Hsat Ha' Hi' Hd' Hsat' HGr HHr Hspan HB Hx)
      as (b & s2' & l' & r' & tp' & R' & Ht').
    pose proof (prove_of_run _ _ _ _ _ _ _ _ _ _ _ _ _ _ _ _ _ _ _ _ _ _ _ _ _ _ _ R' Ht') as Hp'.
    exists b, pf, trf, s2, s2', tr1, tr3, y1, z1, u, x, w, try_, trz, trT, tru, trx, trw, fl, l, r, tp, l', r', tp', lx, rx, Gr, Hr. auto.
  Qed.

  Lemma twins_same dbg s s' t a b a' b' :
    agree pc g s t -> gates_inv s -> p_def s = [] -> p_satisfied s ->
    agree pc g s' t -> gates_inv s' -> p_def s' = [] -> p_satisfied s' -> gens_wf g -> Bb <> v0 ->
    twins dbg s s' a b -> twins dbg s s' a' b' ->
    same_tape (p_size s) (op_degree_of (length (p_vec s))) a a' -> same_tape (p_size s) (op_degree_of (length (p_vec s))) b b'.
  Proof.
    intros Ha Hi Hd Hsat Ha' Hi' Hd' Hsat' (Gr0 & Hr0 & G0 & H0 & LG & LH) HB
      (pf & trf & s2 & s2' & tr1 & tr3 & y & z & u & x & w & try_ & trz & trT & tru & trx & trw & fl & l & r & tp & l' & r' & tp' & lx & rx & Gr & Hr & Hx & R & R' & _)
      (pf1 & trf1 & s21 & s21' & tr11 & tr31 & y1 & z1 & u1 & x1 & w1 & try_1 & trz1 & trT1 & tru1 & trx1 & trw1 & fl1 & l1 & r1 & tp1 & l1' & r1' & tp1' & lx1 & rx1 & Gr1 & Hr1 & Hx1 & R1 & R1' & _) T.
    assert (Gr0 = Gr) by (pose proof (rn_G _ _ _ _ _ _ _ _ _ _ _ _ _ _ _ _ _ _ _ _ _ _ _ _ _ _ _ _ _ _ R); congruence).
    assert (Hr0 = Hr) by (pose proof (rn_H _ _ _ _ _ _ _ _ _ _ _ _ _ _ _ _ _ _ _ _ _ _ _ _ _ _ _ _ _ _ R); congruence). subst Gr0 Hr0.
    assert (HGr : (gens_capacity g <= length Gr)%nat) by lia. assert (HHr : (gens_capacity g <= length Hr)%nat) by lia.
    assert (Hs2 : p_create_randomized E (p_set_tr (padded s) tr1) = Some (Ok s2)) by apply R.
    destruct (run_public _ _ _ _ _ _ _ _ _ _ _ _ _ _ _ _ _ _ _ _ _ _ _ _ _ _ _ t R Ha Hi Hd HGr HHr (one_phase_batched _ _ _ _ Hd Hsat Hs2))
      as (_ & _ & _ & _ & _ & _ & _ & _ & Ltp & _). cbv zeta in *.
    destruct (run_det _ _ _ _ _ _ _ _ _ _ _ _ _ _ _ _ _ _ _ _ _ _ _ _ _ _ _ _ _ _ _ _ _ _ _ _ _ _ _ _ _ _ _ _ _ _ _ _ _ _ _ _ R R1 Hd Ltp T)
      as (<- & <- & <- & <- & <- & <- & <- & <- & <- & <-).
    destruct (agree_shape s s' t Ha Ha') as (Sz & Snc & _). rewrite Sz, Snc.
    exact (run_tape _ _ _ _ _ _ _ _ _ _ _ _ _ _ _ _ _ _ _ _ _ _ _ _ _ _ _ _ _ _ _ _ _ _ _ _ _ _ _ _ _ _ _ _ R' R1' Ha' Hi' Hd' Hsat' HGr HHr HB Hx).
  Qed.

  Lemma blind_iff (b c : F) (P W : V) : Bb <> v0 -> vsub P W = vsmul c Bb -> (vadd (vsmul b Bb) W = P <-> b = c).
  Proof.
    intros HB HW. split.
    - intros <-. apply (smul_inj _ _ Bb HB). rewrite <- HW. vring.
    - intros ->. rewrite <- HW. vring.
  Qed.

  (** The polynomial does not depend on the blindings of the T-commitments. *)
  Lemma run_same_tp dbg dbg' a a' s pf trf s2 tr1 tr3 y z u x w try_ trz trT tru trx trw fl l r tp lx rx Gr Hr
      pf' trf' s2' tr1' tr3' y' z' u' x' w' try_' trz' trT' tru' trx' trw' fl' l' r' tp' lx' rx' Gr' Hr' :
    run E pc g dbg a s pf trf s2 tr1 tr3 y z u x w try_ trz trT tru trx trw fl l r tp lx rx Gr Hr ->
    run E pc g dbg' a' s pf' trf' s2' tr1' tr3' y' z' u' x' w' try_' trz' trT' tru' trx' trw' fl' l' r' tp' lx' rx' Gr' Hr' ->
    (forall rt, mkRand (r_i1 a') (r_o1 a') (r_s1 a') (r_sL1 a') (r_sR1 a') (r_i2 a') (r_o2 a') (r_s2 a') (r_sL2 a') (r_sR2 a') rt
              = mkRand (r_i1 a) (r_o1 a) (r_s1 a) (r_sL1 a) (r_sR1 a) (r_i2 a) (r_o2 a) (r_s2 a) (r_sL2 a) (r_sR2 a) rt) ->
    tp = tp'.
  Proof.
    intros R R' Hr0. specialize (Hr0 (fun _ => 0)). injection Hr0 as Q1 Q2 Q3 Q4 Q5 Q6 Q7 Q8 Q9 Q10.
    destruct R as [RG RH Rc1 RAI1 RAO1 RS1 Rtr1 Rs2 Rc2 Rph RAI2 RAO2 RS2 Rtr3 Ry Rz Rfl Ry0 Rpo RT RTs Ru Rx Rtx Rtxb Rlx Rrx Reb Rw Ripp].
    destruct R' as [RG' RH' Rc1' RAI1' RAO1' RS1' Rtr1' Rs2' Rc2' Rph' RAI2' RAO2' RS2' Rtr3' Ry' Rz' Rfl' Ry0' Rpo' RT' RTs' Ru' Rx' Rtx' Rtxb' Rlx' Rrx' Reb' Rw' Ripp'].
    rewrite ?Q1, ?Q2, ?Q3, ?Q4, ?Q5, ?Q6, ?Q7, ?Q8, ?Q9, ?Q10 in *.
    assert (EG : Gr = Gr') by congruence. assert (EH : Hr = Hr') by congruence. subst Gr' Hr'.
    assert (EI : A_I1 pf = A_I1 pf') by congruence. assert (EO : A_O1 pf = A_O1 pf') by congruence. assert (ES : S1 pf = S1 pf') by congruence.
    assert (E1 : tr1 = tr1') by congruence. rewrite <- E1 in Rs2'. assert (E2 : s2 = s2') by congruence. rewrite <- E2 in *.
    assert (EI2 : A_I2 pf = A_I2 pf') by congruence. assert (EO2 : A_O2 pf = A_O2 pf') by congruence. assert (ES2 : S2 pf = S2 pf') by congruence.
    assert (E3 : tr3 = tr3') by congruence.
    assert (y = y' /\ try_ = try_') as (<- & <-) by (split; congruence).
    assert (z = z' /\ trz = trz') as (<- & <-) by (split; congruence).
    assert (fl = fl') as <- by congruence. congruence.
  Qed.

  Lemma run_tp_length dbg rnd s pf trf s2 tr1 tr3 y z u x w try_ trz trT tru trx trw fl l r tp lx rx Gr Hr t :
    run E pc g dbg rnd s pf trf s2 tr1 tr3 y z u x w try_ trz trT tru trx trw fl l r tp lx rx Gr Hr ->
    agree pc g s t -> gates_inv s -> length tp = (2 * (op_degree_of (length (p_vec s)) + 1) + 1)%nat.
  Proof.
    intros R Ha Hi.
    destruct (run_facts _ _ _ _ _ _ _ _ _ _ _ _ _ _ _ _ _ _ _ _ _ _ _ _ _ _ _ _ _ _ t R Ha Hi)
      as (t2 & Ht2 & Ha2 & Hi2 & HlaL & Hn1 & Hpv & Hpvb & Hvec & FL & FR & FO & Hvl & Hvs & Hvn & Hvs0).
    destruct R as [RG RH Rc1 RAI1 RAO1 RS1 Rtr1 Rs2 Rc2 Rph RAI2 RAO2 RS2 Rtr3 Ry Rz Rfl Ry0 Rpo RT RTs Ru Rx Rtx Rtxb Rlx Rrx Reb Rw Ripp].
    destruct (p_v_flatten _ _ _ _ _ _ Ha2 Rfl) as (flx & Hflx & Hsame0).
    destruct (v_flatten_shape _ _ _ Hflx) as (WL & WR & WO & WV & WVC).
    assert (HwVC : map (@length F) (wVC fl) = map (@length F) (map snd (p_vec s2))).
    { destruct Hsame0 as (_ & _ & _ & _ & E5). rewrite E5, WVC, (ag_vec _ _ _ _ Ha2), !map_map. reflexivity. }
    destruct (build_polys_spec (length (p_vec s)) (p_size s2) y (finv y) (p_aL s2) (p_aR s2) (p_aO s2)
       (map (r_sL1 rnd) (seq 0 (p_size s)) ++ map (r_sL2 rnd) (seq 0 (p_size s2 - p_size s)))
       (map (r_sR1 rnd) (seq 0 (p_size s)) ++ map (r_sR2 rnd) (seq 0 (p_size s2 - p_size s))) fl (map snd (p_vec s2)))
      as (l0 & r0 & tp0 & B1 & B2 & _).
    { rewrite map_length, Hvec. reflexivity. } { exact HwVC. }
    { rewrite Forall_map, Hvec. eapply Forall_impl; [|exact Hvl]. intros bv Hb. cbv beta in Hb |- *. lia. }
    rewrite Rpo in B1. apply Some_inj in B1. congruence.
  Qed.
End WI.

(** In the field as a module over itself every non-zero element spans. *)
Section Reg.
  Context {F : Field}.
  Add Field FFreg : (f_th F).
  Lemma regv_span (B : RegV F) : B <> v0 -> forall P : RegV F, exists k : F, P = vsmul k B.
  Proof.
    intros HB P. assert (HB' : (B : F) <> 0) by exact HB. exists (fmul (P : F) (finv (B : F))).
    change ((P : F) = fmul (fmul (P : F) (finv (B : F))) (B : F)). field. exact HB'.
  Qed.
End Reg.
