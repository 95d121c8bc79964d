(** * Forged proofs, panics, malleability, generator capacity and batching *)
From Verif Require Import R1CSSpec UtilProofs CSProofs Lockstep FlatProofs CSMore R1CSPoly R1CSAlg R1CSProofs R1CSCore R1CSMain R1CSVerif IPPSpec IPPProofs.
Local Open Scope F_scope.

Section More.
  Context {F : Field} {V : VSpace F}.
  Add Field FFmore : (f_th F).
  Variable E : TrEnv V.
  Variable pc : PedersenGens V.
  Variable g : BPGens V.
  Implicit Types (t : VState V).

  (** every challenge can be drawn and none is zero *)
  Definition good_challenges : Prop := forall tr lb, exists c tr', challenge_scalar E tr lb = Some (c, tr') /\ c <> 0.

  Lemma ipp_challenges_repeat (Hch : good_challenges) (P : V) Rx : P <> v0 -> forall k tr,
    exists us tr', ipp_challenges E tr (repeat P k) (repeat P k ++ Rx) = Some (Ok (us, tr')) /\ length us = k.
  Proof.
    intros HP. induction k as [|k IH]; intros tr; cbn [repeat app ipp_challenges].
    - exists [], tr. split; reflexivity.
    - unfold validate_and_append_point. destruct (veqb_spec _ _ P v0) as [|_]; [contradiction|].
      destruct (Hch (append_point E (append_point E tr "L" P) "R" P) "u"%string) as (c & tr1 & -> & _). cbn [opt_bind].
      destruct (IH tr1) as (us & tr' & -> & Hl). cbn [opt_bind]. exists (c :: us), tr'. split; [reflexivity|cbn; lia].
  Qed.
  Lemma ipp_challenges_surplus (Rx : list V) : forall (Ls Rs : list V) tr, length Rs = length Ls ->
    ipp_challenges E tr Ls (Rs ++ Rx) = ipp_challenges E tr Ls Rs.
  Proof.
    induction Ls as [|L Ls IH]; intros [|R Rs] tr H; cbn [app ipp_challenges] in *; try discriminate; [destruct Rx; reflexivity|].
    destruct (validate_and_append_point E tr "L" L); [|reflexivity]. destruct (validate_and_append_point E _ "R" R); [|reflexivity].
    destruct (challenge_scalar E _ "u") as [[c tr']|]; [|reflexivity]. cbn [opt_bind]. rewrite IH by (cbn in H; lia). reflexivity.
  Qed.

  Lemma validate_Ts_total (Hch : good_challenges) (op : nat) (T : list V) : forall ds tr,
    (forall d, In d ds -> (d < 41)%nat) -> (forall d, In d ds -> d <> op -> exists P, nth_error T d = Some P /\ P <> v0) ->
    exists tr', validate_Ts E op ds T tr = Some (Ok tr').
  Proof.
    induction ds as [|d ds IH]; intros tr H41 HT; cbn [validate_Ts]; [eauto|].
    destruct (Nat.eqb_spec d op) as [|Hne].
    - apply IH; intros; [apply H41|apply HT]; try right; assumption.
    - destruct (nth_error T_LABELS d) as [lb|] eqn:El.
      2:{ exfalso. apply nth_error_None in El. cbn in El. specialize (H41 d (or_introl eq_refl)). lia. }
      cbn [opt_bind]. destruct (HT d (or_introl eq_refl) Hne) as (P & -> & HP). cbn [opt_bind].
      unfold validate_and_append_point. destruct (veqb_spec _ _ P v0); [contradiction|].
      apply IH; intros; [apply H41|apply HT]; try right; assumption.
  Qed.

  Lemma op_le_17 ncomm : (ncomm <= 17)%nat <-> (2 * (op_degree_of ncomm + 1) + 1 <= 41)%nat.
  Proof.
    unfold op_degree_of. pose proof (Nat.div_mod ncomm 2 ltac:(lia)) as H. pose proof (Nat.mod_upper_bound ncomm 2 ltac:(lia)). lia.
  Qed.

  Lemma one_phase_v t tr : v_def t = [] -> exists t2, v_create_randomized E (v_set_tr (v_pad (v_size t) t) tr) = Some (Ok t2) /\
    v_size t2 = v_size t /\ v_num t2 = v_size t /\ v_cs t2 = v_cs t /\ v_vec t2 = v_vec t /\ v_V t2 = v_V t.
  Proof.
    intros Hd. destruct (v_pad_facts t) as (P1 & P2 & P3 & P4 & P5 & P6 & P7). cbv zeta in *. unfold v_create_randomized.
    cbn [v_set_num v_set_tr v_def]. change (v_def (v_set_num (v_set_tr ?a ?b) ?c ?d)) with (v_def a). rewrite P5, Hd. eexists. split; [reflexivity|].
    repeat split; cbn; try assumption.
  Qed.

  Lemma msm_map_zero {A} (f : A -> F) l (ps : list V) : (forall a, f a = 0) -> msm (map f l) ps = v0.
  Proof. intros H. revert ps; induction l as [|a l IH]; intros [|p ps]; cbn; auto. rewrite H, IH. vring. Qed.
  Lemma msm_map_scale {A} (c : F) (f : A -> F) l (ps : list V) : msm (map (fun a => c * f a) l) ps = vsmul c (msm (map f l) ps).
  Proof. rewrite <- msm_scale. unfold vscale. rewrite map_map. reflexivity. Qed.

  (** the scalars of the tuple, split by the random weight of the verifier *)
  Lemma forge t :
    pcB pc <> v0 -> gens_wf g -> (next_power_of_two (v_size t) <= gens_capacity g)%nat -> (gens_capacity g < 2 ^ 32)%nat ->
    (length (v_vec t) <= 17)%nat -> v_def t = [] ->
    Forall (Forall (fun x => var_in_range (v_size t) (length (v_V t)) (map snd (v_vec t)) (fst x))) (v_cs t) ->
    good_challenges ->
    exists pf, length (ipp_R (pipp pf)) = (length (ipp_L (pipp pf)) + 2)%nat /\
      forall dbg rr, r1cs_verify E dbg rr pf pc g t = Some (Ok tt).
  Proof.
    intros HB (Gr & Hr & HG & HH & LG & LH) HN Hcap H17 Hdef Hrange Hch.
    set (P := pcB pc) in *. set (op := op_degree_of (length (v_vec t))).
    set (M := (2 * (op + 1) + 1)%nat).
    set (T := map (fun d => if Nat.eqb d op then v0 else P) (seq 0 M)).
    destruct (one_phase_v t (append_point E (append_point E (append_point E
               (append_u64 (v_tr t) "m" (N.of_nat (length (v_V t)))) "A_I1" P) "A_O1" P) "S1" P) Hdef) as (t2 & Hr2 & Hs2 & Hn2 & Hcs2 & Hvec2 & HV2).
    destruct (Hch (append_point E (append_point E (append_point E (v_tr t2) "A_I2" v0) "A_O2" v0) "S2" v0) "y"%string) as (y & try_ & Ry & Hy0).
    destruct (Hch try_ "z"%string) as (z & trz & Rz & _).
    assert (HT41 : (M <= 41)%nat) by (apply op_le_17; exact H17).
    destruct (validate_Ts_total Hch op T (seq 0 M) trz) as (trT & HVT).
    { intros d Hd. apply in_seq in Hd. lia. }
    { intros d Hd Hne. apply in_seq in Hd. exists P. split; [|exact HB]. unfold T. rewrite nth_error_map, (nth_error_nth' _ 0%nat) by (rewrite seq_length; lia).
      rewrite seq_nth by lia. cbn [option_map Nat.add]. apply Nat.eqb_neq in Hne. rewrite Hne. reflexivity. }
    destruct (Hch trT "u"%string) as (u & tru & Ru & _). destruct (Hch tru "x"%string) as (x & trx & Rx & _).
    destruct (proj1 (v_flatten_total t2 z)) as (fl & Hfl).
    { unfold v_in_range. rewrite Hcs2, Hn2, HV2, Hvec2. exact Hrange. }
    set (N := next_power_of_two (v_size t)) in *. set (k := Nat.log2_up (v_size t)). assert (HNk : N = (2 ^ k)%nat) by reflexivity.
    set (delta := ip (firstn (v_size t) (zipw fmul (wR fl) (exp_iter (finv y) N) ++ repeat 0 (N - v_size t))) (wL fl)).
    set (tx := fpow x op * (wc fl + delta) + 1).
    destruct (Hch (append_scalar E (append_scalar E (append_scalar E trx "t_x" tx) "t_x_blinding" 0) "e_blinding" 1) "w"%string) as (w & trw & Rw & _).
    destruct (ipp_challenges_repeat Hch P [] HB k (innerproduct_domain_sep trw (N.of_nat N))) as (us & tri & Hus & Lus). rewrite app_nil_r in Hus.
    set (mk := fun Rx => mkProof (V:=V) P P P v0 v0 v0 T tx 0 1 (mkIPP (repeat P k) (repeat P k ++ Rx) 0 0)).
    assert (Hf : forall dbg Rx, v_facts E dbg (mk Rx) t t2 y z u x w fl us).
    { intros dbg Rxs. constructor; cbn [mk A_I1 A_O1 S1 A_I2 A_O2 S2 pT pt_x pt_x_blinding pe_blinding pipp].
      - intros _. fold op. fold M. split; [unfold T; rewrite map_length, seq_length; reflexivity|]. split; [|right; auto].
        unfold T. rewrite nth_error_map, (nth_error_nth' _ 0%nat) by (rewrite seq_length; unfold M; lia). rewrite seq_nth by (unfold M; lia). cbn [option_map Nat.add].
        rewrite Nat.eqb_refl. reflexivity.
      - auto.
      - exact Hr2.
      - exists try_, trz, trT, tru, trx, trw, tri. fold op. fold M. repeat (split; [assumption|]). rewrite Hs2. fold N.
        apply verification_scalars_spec. exists us, tri. cbn [mk pipp ipp_L ipp_R]. rewrite repeat_length.
        split; [rewrite ipp_challenges_surplus by reflexivity; exact Hus|].
        split; [apply pow2_lt_32; rewrite <- HNk; eapply Nat.le_lt_trans; [exact HN|exact Hcap]|].
        split; [exact HNk|]. split; [exact Lus|reflexivity].
      - exact Hfl.
      - exact Hy0. }
    assert (Lsv : length (svec us) = N) by (rewrite svec_length, Lus; symmetry; exact HNk).
    destruct (v_flatten_shape _ _ _ Hfl) as (WL & WR & WO & WV & WVC). rewrite Hn2 in WL, WR, WO.
    set (ds := filter (fun d => negb (Nat.eqb d op)) (seq 0 M)).
    (* everything except the two surplus points *)
    set (pts := map fst (v_vec t2) ++ [P; P; P; v0; v0; v0] ++ v_V t2 ++ map (fun d => nth d T v0) ds ++ repeat P k ++ repeat P k).
    set (mid := (op / 2)%nat).
    set (c0 := map (fun o : nat * nat => fpow x (fst o)) (firstn (length (v_vec t2)) (skipn 2 (op_splits op))) ++ [fpow x mid; fpow x op; fpow x (op + 1); fpow x mid * u; fpow x op * u; fpow x (op + 1) * u]
            ++ map (fun c => c * 0) (wV fl) ++ map (fun d => 0) ds ++ map (fun c => c * c) us ++ map (fun c => inv_or_zero c * inv_or_zero c) us).
    set (K1 := vadd (msm (map (fun c => c * fpow x op) (wV fl)) (v_V t2)) (msm (map (fun d => fpow x d) ds) (map (fun d => nth d T v0) ds))).
    pose proof (v_scalars_of_facts E false 0 (mk []) t t2 y z u x w fl us (Hf false [])) as _.
    set (gh := tl (tl (vt_fixed (run_tuple 0 (mk []) t2 (v_size t) (v_size t2) op y u x w fl us)))).
    set (K0 := vadd (msm c0 pts) (msm gh ([P; pcB_blinding pc] ++ firstn N Gr ++ firstn N Hr))).
    exists (mk [K1; vadd K0 (vsmul (w * tx) K1)]).
    split. { cbn [mk pipp ipp_L ipp_R]. rewrite app_length, repeat_length. cbn [length]. lia. }
    intros dbg rr. unfold r1cs_verify. rewrite (v_scalars_of_facts E dbg rr _ t t2 y z u x w fl us (Hf dbg _)). cbn [res_bind].
    assert (Hsplit : msm (vt_scalars (run_tuple rr (mk []) t2 (v_size t) (v_size t2) op y u x w fl us)) pts = vadd (msm c0 pts) (vsmul rr K1)).
    { unfold run_tuple, c0, pts, K1. cbn [vt_scalars mk].
      assert (LxL : length (map (fun o : nat * nat => fpow x (fst o)) (firstn (length (v_vec t2)) (skipn 2 (op_splits op)))) = length (map fst (v_vec t2))).
      { assert (Hop2 : (2 <= op)%nat) by (unfold op; rewrite op_degree_even; lia).
        rewrite !map_length, firstn_length, skipn_length, op_splits_length by exact Hop2. rewrite Hvec2.
        pose proof (op_degree_ge (length (v_vec t))) as Hge. fold op in Hge. lia. }
      fold M. fold ds. fold mid.
      rewrite !msm_app by (first [exact LxL | reflexivity | rewrite ?map_length, ?repeat_length; congruence]).
      rewrite (msm_map_zero (fun c : F => c * 0)) by (intros; ring). rewrite (msm_map_zero (fun _ : nat => 0)) by reflexivity.
      rewrite (map_ext (fun c : F => c * (rr * fpow x op)) (fun c => rr * (c * fpow x op))) by (intros; ring).
      rewrite (msm_map_scale rr (fun c : F => c * fpow x op)), (msm_map_scale rr (fun d => fpow x d)). vring. }
    pose (R0 := K1). pose (R1 := vadd K0 (vsmul (w * tx) K1)). change (mk [K1; vadd K0 (vsmul (w * tx) K1)]) with (mk [R0; R1]). fold op.
    assert (Hpts : vt_points (run_tuple rr (mk [R0; R1]) t2 (v_size t) (v_size t2) op y u x w fl us) = pts ++ [R0; R1]).
    { unfold run_tuple, pts. cbn [vt_points mk A_I1 A_O1 S1 A_I2 A_O2 S2 pT pipp ipp_L ipp_R]. fold M. fold ds. rewrite <- !app_assoc. reflexivity. }
    assert (Hscs : vt_scalars (run_tuple rr (mk [R0; R1]) t2 (v_size t) (v_size t2) op y u x w fl us)
        = vt_scalars (run_tuple rr (mk []) t2 (v_size t) (v_size t2) op y u x w fl us)) by reflexivity.
    assert (Hfix : vt_fixed (run_tuple rr (mk [R0; R1]) t2 (v_size t) (v_size t2) op y u x w fl us) = ((w * tx - rr) :: (- (1)) :: gh)%F).
    { unfold gh, run_tuple. cbn [vt_fixed mk pt_x pt_x_blinding pe_blinding pipp ipp_a ipp_b tl]. rewrite Hs2. fold N. fold delta. f_equal; [unfold tx; ring|]. f_equal. ring. }
    assert (Lgh : length gh = (2 * N)%nat).
    { unfold gh, run_tuple. cbn [vt_fixed tl]. rewrite Hs2. fold N. rewrite app_length, zipw_length, combine_length, map_length, seq_length, !app_length, zipw_length,
        !repeat_length, exp_iter_length, WR, Lsv. pose proof (next_power_of_two_ge (v_size t)). fold N in H. lia. }
    set (vt := run_tuple rr (mk [R0; R1]) t2 (v_size t) (v_size t2) op y u x w fl us) in *.
    rewrite (mega_check_value pc g vt N (firstn N Gr) (firstn N Hr)).
    2:{ rewrite Hfix. cbn [length]. rewrite Lgh. lia. } 2:{ exact HN. } 2:{ unfold share_G. rewrite HG. reflexivity. } 2:{ unfold share_H. rewrite HH. reflexivity. }
    rewrite Hpts, Hscs, Hfix. rewrite <- app_assoc.
    rewrite msm_app.
    2:{ unfold run_tuple, pts. cbn [vt_scalars]. fold M. fold ds. fold mid. repeat (rewrite app_length || rewrite map_length || rewrite repeat_length). cbn [length].
        assert (Hop2 : (2 <= op)%nat) by (unfold op; rewrite op_degree_even; lia).
        rewrite !firstn_length, skipn_length, op_splits_length, Hvec2, WV, Lus by exact Hop2.
        pose proof (op_degree_ge (length (v_vec t))) as Hge. fold op in Hge. lia. }
    rewrite Hsplit. cbn [app msm].
    match goal with |- Some (if veqb ?X v0 then _ else _) = _ => assert (HX : X = v0) end.
    { unfold R0, R1, K0. cbn [app]. change (pcB pc) with P. vring. }
    rewrite HX, (proj2 (veqb_true v0 v0) eq_refl). reflexivity.
  Qed.
End More.
