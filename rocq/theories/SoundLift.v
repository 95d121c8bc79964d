(** * Soundness in the group: accepted proofs of algebraic provers *)
From Verif Require Import SoundSpec SoundCount UtilProofs CSProofs FlatProofs GenProofs R1CSPoly R1CSAlg R1CSProofs IPPSpec IPPProofs IPPSound R1CSCore R1CSMain R1CSVerif R1CSMisc SoundSplit SoundFree SoundMain SoundGame.
Local Open Scope F_scope.

Section Mono.
  Context {F : Field}.
  Variable N : nat.
  Local Notation W := (FreeV F (2 + (N + N))).

  Lemma unlucky_mono (t2 : VState W) (C C' : F -> F -> list W -> F -> F -> F -> F -> F -> F -> list W -> list W -> list F -> F -> F -> F -> Prop) :
    (forall y z T u x tx txb eb w Ls Rs us a b rr, C y z T u x tx txb eb w Ls Rs us a b rr -> C' y z T u x tx txb eb w Ls Rs us a b rr) ->
    unless_unlucky N t2 C -> unless_unlucky N t2 C'.
  Proof.
    intros Hm. unfold unless_unlucky. intros (bY & HY & H). exists bY. split; [exact HY|]. intros y Hy. destruct (H y Hy) as (bZ & HZ & H1).
    exists bZ. split; [exact HZ|]. intros z T Hz. destruct (H1 z T Hz) as (bU & HU & H2).
    exists bU. split; [exact HU|]. intros u Hu. destruct (H2 u Hu) as (bX & HX & H3).
    exists bX. split; [exact HX|]. intros x tx txb eb Hx. destruct (H3 x tx txb eb Hx) as (bW & HW & H4).
    exists bW. split; [exact HW|]. intros w Hw. destruct (H4 w Hw) as (bI & HI & H5).
    exists bI. split; [exact HI|]. intros Ls Rs us a b Ha. destruct (H5 Ls Rs us a b Ha) as (bR & HR & H6).
    exists bR. split; [exact HR|]. intros rr Hr. apply Hm. apply H6. exact Hr.
  Qed.
End Mono.

Section Lift.
  Context {F : Field} {V : VSpace F}.
  Add Field FFlift : (f_th F).
  Variable E : TrEnv V.

  Lemma validate_append op (T : list V) : forall ds tr tr', validate_Ts E op ds T tr = Some (Ok tr') -> append_Ts E op ds T tr = Some tr'.
  Proof.
    induction ds as [|d ds IH]; intros tr tr' H; cbn [validate_Ts append_Ts] in *; [congruence|].
    destruct (Nat.eqb d op); [apply IH; exact H|]. destruct (nth_error T_LABELS d); cbn [opt_bind] in *; [|discriminate].
    destruct (nth_error T d); cbn [opt_bind] in *; [|discriminate]. unfold validate_and_append_point in H. destruct (veqb v v0); [discriminate|]. apply IH. exact H.
  Qed.

  (** the challenges of an accepted proof are those of the transcript *)
  Lemma facts_challenges dbg pf t t2 y z u x w fl us c : v_facts E dbg pf t t2 y z u x w fl us -> all_challenges E pf t = Some c ->
    exists us', c = (t2, (y, z, u, x, w), us') /\ v_facts E dbg pf t t2 y z u x w fl us'.
  Proof.
    intros [F1 F2 F3 (try_ & trz & trT & tru & trx & trw & tri & C1 & C2 & C3 & C4 & C5 & C6 & C7) F5 F6] Hc.
    pose proof (proj1 (verification_scalars_spec E _ _ _ _) C7) as (us' & tr' & K1 & K2 & K3 & K4 & K5).
    destruct (v_pad_facts t) as (P1 & P2 & P3 & P4 & P5 & P6 & P7). cbv zeta in *.
    unfold all_challenges in Hc. rewrite P2, P3, P4, F3, C1 in Hc. cbn [opt_bind] in Hc. rewrite C2 in Hc. cbn [opt_bind] in Hc.
    rewrite (validate_append _ _ _ _ _ C3) in Hc. cbn [opt_bind] in Hc. rewrite C4 in Hc. cbn [opt_bind] in Hc. rewrite C5 in Hc. cbn [opt_bind] in Hc.
    rewrite C6 in Hc. cbn [opt_bind] in Hc. rewrite K1 in Hc. exists us'. split; [congruence|].
    constructor; auto. exists try_, trz, trT, tru, trx, trw, tr'. repeat (split; [assumption|]). rewrite C7. congruence.
  Qed.
End Lift.

Section Main.
  Context {F : Field} {V : VSpace F}.
  Variable N : nat.
  Local Notation W := (FreeV F (2 + (N + N))).

  Lemma map_vstate_flatten (f : W -> V) (t2 : VState W) z : v_flatten (map_vstate f t2) z = v_flatten t2 z.
  Proof. unfold v_flatten, map_vstate. cbn [v_cs v_num v_V v_vec]. rewrite map_length, map_map. reflexivity. Qed.
  Lemma map_vstate_size (f : W -> V) (t2 : VState W) : v_size (map_vstate f t2) = v_size t2.
  Proof.
    unfold v_size, map_vstate. cbn [v_num v_vec]. generalize (v_num t2). induction (v_vec t2) as [|cd l IH]; intros n0; cbn [map fold_left]; [reflexivity|apply IH].
  Qed.
  Lemma all_points_map (f : W -> V) (Hf0 : f v0 = v0) (t2 : VState W) (pf : R1CSProof W) :
    all_points (map_vstate f t2) (map_proof f pf) = map f (all_points t2 pf).
  Proof.
    unfold all_points, map_vstate, map_proof. cbn [v_vec v_V A_I1 A_O1 S1 A_I2 A_O2 S2 pT pipp ipp_L ipp_R].
    rewrite !map_app, !map_map, map_length. cbn [map]. do 3 f_equal. f_equal. apply map_ext. intros d. rewrite <- Hf0 at 1. rewrite map_nth. reflexivity.
  Qed.

  Theorem game_lifted (t2 : VState W) n1 (AI1 AO1 SS1 AI2 AO2 SS2 : W) :
    unless_unlucky N t2 (fun y z T u x tx txb eb w Ls Rs us a b rr =>
      let pf := mkProof AI1 AO1 SS1 AI2 AO2 SS2 T tx txb eb (mkIPP Ls Rs a b) in
      forall (E : TrEnv V) dbg pc g t Gs Hs vt,
        let phi := free_eval (generators pc Gs Hs) in
        gens_wf g -> share_G g 0 N = Some Gs -> share_H g 0 N = Some Hs -> v_size t = n1 -> length Rs = length Ls ->
        next_power_of_two (v_size t2) = N ->
        all_challenges E (map_proof phi pf) t = Some (map_vstate phi t2, (y, z, u, x, w), us) ->
        r1cs_verify E dbg rr (map_proof phi pf) pc g t = Some (Ok tt) ->
        v_scalars_and_points E dbg rr (map_proof phi pf) t = Some (Ok vt) ->
        let c := combined N (vt_scalars vt) (all_points t2 pf) (vt_fixed vt) in
        free_eval (generators pc Gs Hs) c = v0 /\
        (c <> v0 \/
         (Forall (fun lc => lc_val (extracted N n1 t2 AI1 AO1 AI2 AO2) lc = 0) (v_cs t2) /\
          forall i, let wi := extracted N n1 t2 AI1 AO1 AI2 AO2 in wi (MulL i) * wi (MulR i) - wi (MulO i) + gate_defect N n1 t2 AO1 i = 0))).
  Proof.
    eapply unlucky_mono; [|apply (game_core N t2 n1 AI1 AO1 SS1 AI2 AO2 SS2)]. cbv beta.
    intros y z T u x tx txb eb w Ls Rs us a b rr Hcore pf E dbg pc g t Gs Hs vt phi Hgw HGs HHs Hn1 HR HN Hch Hver Hvt c.
    destruct (v_facts_of_scalars _ _ _ _ _ _ Hvt) as (t2' & y' & z' & u' & x' & w' & fl & us' & Hf).
    destruct (facts_challenges _ _ _ _ _ _ _ _ _ _ _ _ _ Hf Hch) as (us2 & Heq & Hf2). clear Hf us'.
    assert (t2' = map_vstate phi t2 /\ y' = y /\ z' = z /\ u' = u /\ x' = x /\ w' = w /\ us2 = us) as (-> & -> & -> & -> & -> & -> & ->) by (repeat split; congruence).
    clear Heq. rename Hf2 into Hf.
    pose proof (v_scalars_of_facts E dbg rr _ _ _ _ _ _ _ _ _ _ Hf) as Hvt'.
    assert (Hvt2 : vt = run_tuple rr (map_proof phi pf) (map_vstate phi t2) (v_size t) (v_size (map_vstate phi t2)) (op_degree_of (length (v_vec t))) y u x w fl us) by congruence.
    clear Hvt'.
    destruct (v_size_after E t _ _ (vf_rand _ _ _ _ _ _ _ _ _ _ _ _ Hf)) as (S1 & S2 & S3 & S4).
    rewrite map_vstate_size in S1, S2. cbn [map_vstate v_num] in S1.
    assert (Hop : op_degree_of (length (v_vec t)) = op_degree_of (length (v_vec t2))) by (rewrite <- S3; cbn [map_vstate v_vec]; rewrite map_length; reflexivity).
    pose proof (v_facts_us E _ _ _ _ _ _ _ _ _ _ _ Hf) as (Lus & HNus). cbn [map_proof pipp ipp_L pf] in Lus, HNus. rewrite map_length in Lus, HNus. rewrite map_vstate_size, HN in HNus.
    assert (Hflt : v_flatten t2 z = Some fl) by (rewrite <- (map_vstate_flatten phi); exact (vf_fl _ _ _ _ _ _ _ _ _ _ _ _ Hf)).
    pose proof (v_flatten_shape _ _ _ Hflt) as Hshape. rewrite <- S1 in Hshape.
    rewrite map_vstate_size, Hn1, Hop in Hvt2.
    set (vtW := run_tuple rr pf t2 n1 (v_size t2) (op_degree_of (length (v_vec t2))) y u x w fl us).
    assert (Hsc : vt_scalars vt = vt_scalars vtW /\ vt_fixed vt = vt_fixed vtW).
    { rewrite Hvt2. unfold vtW, run_tuple, map_proof, map_vstate. cbn [vt_scalars vt_fixed v_vec pT pipp ipp_L ipp_R ipp_a ipp_b pt_x pe_blinding pt_x_blinding]. rewrite map_length. split; reflexivity. }
    destruct Hsc as (Hsc & Hfx).
    destruct Hgw as (Gr & Hr & HGr & HHr & LGr & LHr).
    assert (Hcap : (N <= gens_capacity g)%nat /\ msm (vt_scalars vt ++ vt_fixed vt) (vt_points vt ++ [pcB pc; pcB_blinding pc] ++ Gs ++ Hs) = v0).
    { pose proof (v_facts_fixed_length E dbg rr _ _ _ _ _ _ _ _ _ _ Hf) as Hl. rewrite map_vstate_size, Hn1, Hop, <- Hvt2, HN in Hl.
      unfold r1cs_verify in Hver. rewrite Hvt in Hver. cbn [res_bind] in Hver.
      destruct (Nat.lt_ge_cases (gens_capacity g) N) as [Hlt|Hge].
      - exfalso. rewrite Hl in Hver. replace (2 + 2 * N - 2)%nat with (N * 2)%nat in Hver by lia. rewrite Nat.div_mul in Hver by lia.
        unfold mega_check in Hver. apply Nat.ltb_lt in Hlt. rewrite Hlt in Hver. discriminate.
      - split; [exact Hge|]. rewrite (mega_check_value _ _ vt N Gs Hs Hl Hge HGs HHs) in Hver. destruct (veqb _ _) eqn:Hq in Hver; [|discriminate].
        apply veqb_true in Hq. exact Hq. }
    destruct Hcap as (Hcap & Hmsm).
    assert (LG : length Gs = N) by (unfold share_G in HGs; rewrite HGr in HGs; cbn [option_map] in HGs; apply Some_inj in HGs; subst Gs; rewrite firstn_length; lia).
    assert (LH : length Hs = N) by (unfold share_H in HHs; rewrite HHr in HHs; cbn [option_map] in HHs; apply Some_inj in HHs; subst Hs; rewrite firstn_length; lia).
    assert (Lgens : length (generators pc Gs Hs) = (2 + (N + N))%nat) by (unfold generators; rewrite !app_length, LG, LH; reflexivity).
    destruct (run_tuple_split rr pf t2 n1 (v_size t2) y u x w fl us (bB N) (bBb N) (bG N) (bH N)) as (Q1 & Q2 & Q3 & _);
      [exact Hshape|lia|exact (eq_sym Lus)|exact (eq_trans HR (eq_sym Lus))|congruence|rewrite HN; apply bG_length|rewrite HN; apply bH_length|].
    fold vtW in Q1, Q2, Q3. rewrite HN in Q3. rewrite Q1 in Q2.
    assert (Hpts : vt_points vt = map phi (all_points t2 pf)).
    { rewrite <- all_points_map by (apply free_eval_0; exact Lgens). rewrite Hvt2. unfold run_tuple, all_points. cbn [vt_points map_vstate v_vec]. rewrite map_length. reflexivity. }
    split.
    { unfold c. rewrite combined_eval by (rewrite ?Hsc, ?Hfx; assumption). change (map (free_eval (generators pc Gs Hs)) (all_points t2 pf)) with (map phi (all_points t2 pf)). etransitivity; [|exact Hmsm]. f_equal. unfold generators. f_equal. symmetry. exact Hpts. }
    destruct (veqb_spec _ _ c v0) as [Hc|Hc]; [right|left; exact Hc].
    apply (Hcore fl); auto.
    - unfold sized_ok. rewrite HN. repeat split; [congruence|lia|]. rewrite <- Hn1.
      assert (Hfm : Forall (fun cd => (snd cd <= v_size t)%nat) (v_vec t)) by exact (fold_max_all (v_vec t) (v_num t)). rewrite <- S3 in Hfm. cbn [map_vstate v_vec] in Hfm. rewrite Forall_map in Hfm. exact Hfm.
    - exact (vf_y _ _ _ _ _ _ _ _ _ _ _ _ Hf).
    - congruence.
    - congruence.
    - change (the_proof N AI1 AO1 SS1 AI2 AO2 SS2 T tx txb eb Ls Rs a b) with pf. fold vtW. rewrite Q1.
      rewrite <- combined_msm by assumption. rewrite <- Hsc, <- Hfx. exact Hc.
  Qed.
End Main.
