(** * Completeness, exactness and totality of the R1CS prover and verifier *)
From Verif Require Import R1CSSpec UtilProofs CSProofs Lockstep FlatProofs CSMore R1CSPoly R1CSAlg R1CSProofs R1CSCore IPPSpec IPPProofs GenProofs.
Local Open Scope F_scope.

Section Main.
  Context {F : Field} {V : VSpace F}.
  Add Field FFmain : (f_th F).
  Variable E : TrEnv V.
  Variable pc : PedersenGens V.
  Variable g : BPGens V.
  Implicit Types (s : PState F) (t : VState V).

  Lemma run_dbg dbg dbg' rnd s pf trf s2 tr1 tr3 y z u x w try_ trz trT tru trx trw fl l r tp lx rx Gr Hr :
    run E pc g dbg rnd s pf trf s2 tr1 tr3 y z u x w try_ trz trT tru trx trw fl l r tp lx rx Gr Hr ->
    run E pc g dbg' rnd s pf trf s2 tr1 tr3 y z u x w try_ trz trT tru trx trw fl l r tp lx rx Gr Hr.
  Proof. intros []. constructor; assumption. Qed.

  Lemma pow2_lt_32 k : (2 ^ k < 2 ^ 32)%nat -> (k < 32)%nat.
  Proof. intros H. apply (Nat.pow_lt_mono_r_iff 2); [lia|exact H]. Qed.

  Lemma verify_equation dbg rnd s t pf trf :
    agree pc g s t -> gates_inv s -> gens_wf g -> (gens_capacity g < 2 ^ 32)%nat ->
    r1cs_prove E dbg rnd pc g s = Some (Ok (pf, trf)) ->
    Forall (fun P => P <> v0) (validated_points (op_degree_of (length (p_vec s))) pf) ->
    exists s2 t2 tr1 y z x, p_create_randomized E (p_set_tr (padded s) tr1) = Some (Ok s2) /\
      r1cs_challenges E pf t = Some (t2, y, z, x) /\ agree pc g s2 t2 /\ gates_inv s2 /\
      (forall dbg' rr, exists vt, v_scalars_and_points E dbg' rr pf t = Some (Ok vt) /\
         length (vt_points vt) = length (vt_scalars vt) /\
         length (vt_fixed vt) = (2 + 2 * next_power_of_two (p_size s2))%nat /\ (next_power_of_two (p_size s2) <= gens_capacity g)%nat /\
         exists G H, share_G g 0 (next_power_of_two (p_size s2)) = Some G /\ share_H g 0 (next_power_of_two (p_size s2)) = Some H /\
           length G = next_power_of_two (p_size s2) /\ length H = next_power_of_two (p_size s2) /\
         msm (vt_scalars vt ++ vt_fixed vt) (vt_points vt ++ [pcB pc; pcB_blinding pc] ++ G ++ H)
        = vsmul (- (rr * fpow x (op_degree_of (length (p_vec s))) * batched_constraints (p_asg s2) z (p_cs s2))) (pcB pc)).
  Proof.
    intros Ha Hi (Gr & Hr & HG & HH & LG & LH) Hcap Hp Hnz.
    destruct (prove_run E pc g _ _ _ _ _ Hp) as (s2 & tr1 & tr3 & y & z & u & x & w & try_ & trz & trT & tru & trx & trw & fl & l & r & tp & lx & rx & Gr' & Hr' & R).
    pose proof R as R'. destruct R' as [RG RH Rc1 _ _ _ _ Rs2 Rc2 _ _ _ _ _ _ _ _ _ _ _ _ _ _ _ _ _ _ _ _ Ripp].
    assert (Gr' = Gr) by congruence. assert (Hr' = Hr) by congruence. subst Gr' Hr'.
    assert (H32 : (length (ipp_L (pipp pf)) < 32)%nat).
    { destruct (ipp_create_spec _ _ _ _ _ _ _ _ _ _ _ Ripp) as (k & us & K1 & _ & _ & _ & _ & _ & _ & K8 & _).
      rewrite K8. apply pow2_lt_32. rewrite <- K1, firstn_length. eapply Nat.le_lt_trans; [|exact Hcap]. lia. }
    destruct (run_equation E pc g _ _ _ _ _ _ _ _ _ _ _ _ _ _ _ _ _ _ _ _ _ _ _ _ _ _ _ t R Ha Hi ltac:(lia) ltac:(lia) Hnz H32)
      as (t2 & C2 & Ha2 & Hi2 & _).
    exists s2, t2, tr1, y, z, x. split; [exact Rs2|]. split; [exact C2|]. split; [exact Ha2|]. split; [exact Hi2|].
    intros dbg' rr.
    destruct (run_equation E pc g _ _ _ _ _ _ _ _ _ _ _ _ _ _ _ _ _ _ _ _ _ _ _ _ _ _ _ t (run_dbg _ dbg' _ _ _ _ _ _ _ _ _ _ _ _ _ _ _ _ _ _ _ _ _ _ _ _ _ _ R) Ha Hi ltac:(lia) ltac:(lia) Hnz H32)
      as (t2' & _ & _ & _ & Heq).
    destruct (Heq rr) as (vt & V1 & V2 & V3 & V4). exists vt. split; [exact V1|]. split; [exact V2|]. split; [exact V3|]. split; [exact Rc2|].
    exists (firstn (next_power_of_two (p_size s2)) Gr), (firstn (next_power_of_two (p_size s2)) Hr).
    unfold share_G, share_H. rewrite HG, HH, !firstn_length. cbn [option_map]. repeat (split; [first [reflexivity|lia]|]). exact V4.
  Qed.

  Lemma mega_check_value (vt : VTuple V) N G H : length (vt_fixed vt) = (2 + 2 * N)%nat -> (N <= gens_capacity g)%nat ->
    share_G g 0 N = Some G -> share_H g 0 N = Some H ->
    mega_check pc g ((length (vt_fixed vt) - 2) / 2) (vt_points vt) (vt_scalars vt) (vt_fixed vt) =
    Some (if veqb (msm (vt_scalars vt ++ vt_fixed vt) (vt_points vt ++ [pcB pc; pcB_blinding pc] ++ G ++ H)) v0 then Ok tt else Err VerificationError).
  Proof.
    intros Hl Hc HG HH. rewrite Hl. replace (2 + 2 * N - 2)%nat with (N * 2)%nat by lia. rewrite Nat.div_mul by lia.
    unfold mega_check. destruct (Nat.ltb_spec (gens_capacity g) N); [lia|]. rewrite HG, HH. cbn [opt_bind].
    destruct (veqb _ v0); reflexivity.
  Qed.

  Lemma verify_value dbg rnd s t pf trf :
    agree pc g s t -> gates_inv s -> gens_wf g -> (gens_capacity g < 2 ^ 32)%nat ->
    r1cs_prove E dbg rnd pc g s = Some (Ok (pf, trf)) ->
    Forall (fun P => P <> v0) (validated_points (op_degree_of (length (p_vec s))) pf) ->
    exists s2 t2 tr1 y z x, p_create_randomized E (p_set_tr (padded s) tr1) = Some (Ok s2) /\
      r1cs_challenges E pf t = Some (t2, y, z, x) /\ agree pc g s2 t2 /\ gates_inv s2 /\
      (forall dbg' rr, r1cs_verify E dbg' rr pf pc g t =
         Some (if veqb (vsmul (- (rr * fpow x (op_degree_of (length (p_vec s))) * batched_constraints (p_asg s2) z (p_cs s2))) (pcB pc)) v0
               then Ok tt else Err VerificationError)).
  Proof.
    intros Ha Hi Hw Hcap Hp Hnz. destruct (verify_equation _ _ _ _ _ _ Ha Hi Hw Hcap Hp Hnz) as (s2 & t2 & tr1 & y & z & x & C1 & C2 & C3 & C4 & C5).
    exists s2, t2, tr1, y, z, x. do 4 (split; [assumption|]). intros dbg' rr.
    destruct (C5 dbg' rr) as (vt & V1 & V2 & V3 & V4 & G & H & HG & HH & LG & LH & V5).
    unfold r1cs_verify. rewrite V1. cbn [res_bind]. rewrite (mega_check_value vt _ G H V3 V4 HG HH). rewrite V5. reflexivity.
  Qed.

  Lemma vsmul_zero_iff (c : F) (B : V) : B <> v0 -> (vsmul (- c) B = v0 <-> c = 0).
  Proof.
    intros HB. split; intros H.
    - apply vsmul_eq_0 in H as [H|H]; [|contradiction]. transitivity (- - c); [ring|rewrite H; ring].
    - subst c. vring.
  Qed.

  (** exactness *)
  Lemma verify_exact dbg rnd s t pf trf :
    agree pc g s t -> gates_inv s -> gens_wf g -> (gens_capacity g < 2 ^ 32)%nat -> pcB pc <> v0 ->
    r1cs_prove E dbg rnd pc g s = Some (Ok (pf, trf)) ->
    Forall (fun P => P <> v0) (validated_points (op_degree_of (length (p_vec s))) pf) ->
    exists s2 t2 tr1 y z x, p_create_randomized E (p_set_tr (padded s) tr1) = Some (Ok s2) /\
      r1cs_challenges E pf t = Some (t2, y, z, x) /\ v_cs t2 = p_cs s2 /\
      forall dbg' rr,
        (r1cs_verify E dbg' rr pf pc g t = Some (Ok tt) <-> rr = 0 \/ x = 0 \/ batched_constraints (p_asg s2) z (p_cs s2) = 0) /\
        (r1cs_verify E dbg' rr pf pc g t = Some (Ok tt) \/ r1cs_verify E dbg' rr pf pc g t = Some (Err VerificationError)).
  Proof.
    intros Ha Hi Hw Hcap HB Hp Hnz. destruct (verify_value _ _ _ _ _ _ Ha Hi Hw Hcap Hp Hnz) as (s2 & t2 & tr1 & y & z & x & C1 & C2 & C3 & C4 & C5).
    exists s2, t2, tr1, y, z, x. split; [exact C1|]. split; [exact C2|]. split; [symmetry; exact (ag_cs _ _ _ _ C3)|].
    intros dbg' rr. rewrite C5. set (op := op_degree_of (length (p_vec s))). set (D := batched_constraints _ _ _).
    destruct (veqb_spec _ _ (vsmul (- (rr * fpow x op * D)) (pcB pc)) v0) as [Hz|Hz]; (split; [|auto]).
    - split; [intros _|reflexivity]. apply vsmul_zero_iff in Hz; [|exact HB].
      apply fmul_eq_0 in Hz as [Hz|Hz]; [|auto]. apply fmul_eq_0 in Hz as [Hz|Hz]; [auto|]. right. left.
      destruct (f_eq_dec x 0) as [|Hx]; [assumption|]. exfalso. apply (fpow_neq_0 x op Hx). exact Hz.
    - split; [discriminate|]. intros H. exfalso. apply Hz. apply vsmul_zero_iff; [exact HB|].
      destruct H as [->|[->|H]]; [ring| |rewrite H; ring].
      assert (fpow (0 : F) op = 0) as ->; [|ring]. destruct op as [|op0] eqn:Eop; [exfalso; revert Eop; unfold op; rewrite op_degree_even; lia|cbn [fpow]; ring].
  Qed.

  (** completeness *)
  Lemma verify_complete dbg rnd s t pf trf :
    agree pc g s t -> gates_inv s -> gens_wf g -> (gens_capacity g < 2 ^ 32)%nat ->
    (forall tr s2, p_create_randomized E (p_set_tr (padded s) tr) = Some (Ok s2) -> p_satisfied s2) ->
    r1cs_prove E dbg rnd pc g s = Some (Ok (pf, trf)) ->
    Forall (fun P => P <> v0) (validated_points (op_degree_of (length (p_vec s))) pf) ->
    forall dbg' rr, r1cs_verify E dbg' rr pf pc g t = Some (Ok tt).
  Proof.
    intros Ha Hi Hw Hcap Hsat Hp Hnz dbg' rr. destruct (verify_value _ _ _ _ _ _ Ha Hi Hw Hcap Hp Hnz) as (s2 & t2 & tr1 & y & z & x & C1 & C2 & C3 & C4 & C5).
    rewrite C5. specialize (Hsat _ _ C1). 
    assert (HD : batched_constraints (p_asg s2) z (p_cs s2) = 0).
    { pose proof (batched_satisfied (p_asg s2) 0 (p_cs s2) 1 z Hsat) as H. unfold batched_gates in H. cbn [fsum] in H.
      etransitivity; [|exact H]. ring. }
    rewrite HD. destruct (veqb_spec _ _ (vsmul (- (rr * fpow x (op_degree_of (length (p_vec s))) * 0)) (pcB pc)) v0) as [|Hne]; [reflexivity|].
    exfalso. apply Hne. vring.
  Qed.

  (** one phase: the final state is the padded initial one *)
  Lemma nth_error_zeros (l : list F) k i :
    match nth_error (l ++ zeros k) i with Some c => c | None => 0 end = match nth_error l i with Some c => c | None => 0 end.
  Proof.
    destruct (Nat.lt_ge_cases i (length l)) as [Hlt|Hge].
    - rewrite nth_error_app1 by exact Hlt. reflexivity.
    - rewrite nth_error_app2 by exact Hge. rewrite (proj2 (nth_error_None l i) Hge).
      destruct (nth_error (zeros k) (i - length l)) as [c|] eqn:En; [|reflexivity].
      apply nth_error_In in En. apply repeat_spec in En. exact En.
  Qed.
  Lemma padded_asg s v : p_asg (padded s) v = p_asg s v.
  Proof.
    unfold p_asg, padded. destruct v; cbn [p_var p_set_wires p_aL p_aR p_aO p_v p_vec]; try apply nth_error_zeros; reflexivity.
  Qed.
  Lemma lc_val_ext (w w' : Var -> F) lc : (forall v, w v = w' v) -> lc_val w lc = lc_val w' lc.
  Proof. intros H. induction lc as [|[v c] lc IH]; cbn; [reflexivity|]. rewrite H, IH. reflexivity. Qed.
  Lemma satisfies_ext (w w' : Var -> F) cs : (forall v, w v = w' v) -> satisfies w cs -> satisfies w' cs.
  Proof.
    intros H (H1 & H2 & H3). split; [rewrite <- H; exact H1|]. split; [intros i; rewrite <- !H; apply H2|].
    eapply Forall_impl; [|exact H3]. intros lc Hlc. rewrite <- (lc_val_ext w w' lc H). exact Hlc.
  Qed.
  Lemma one_phase s tr : p_def s = [] ->
    p_create_randomized E (p_set_tr (padded s) tr) = Some (Ok (p_set_tr (p_set_pend (padded s) None) (r1cs_1phase_domain_sep tr))).
  Proof. intros H. unfold p_create_randomized. cbn [p_set_pend p_set_tr p_def padded p_set_wires]. rewrite H. reflexivity. Qed.
  Lemma one_phase_satisfied s : p_def s = [] -> p_satisfied s ->
    forall tr s2, p_create_randomized E (p_set_tr (padded s) tr) = Some (Ok s2) -> p_satisfied s2.
  Proof.
    intros Hd Hs tr s2 H. rewrite (one_phase _ _ Hd) in H. assert (s2 = p_set_tr (p_set_pend (padded s) None) (r1cs_1phase_domain_sep tr)) by congruence. subst s2.
    eapply satisfies_ext; [|exact Hs]. intros v. symmetry. exact (padded_asg s v).
  Qed.
End Main.
