(** * Membership of points that are not in the tree: C68 *)
From Verif Require Export ForgePath PropsSelRerand.
From Verif Require Import CSProofs UtilProofs Lockstep CSMore R1CS R1CSSpec R1CSProofs R1CSMain Toy ToyCurve PropsR1CS PropsGadgets PropsRerand.
Local Open Scope F_scope.

(** ** C68: membership proofs are sound *)
(** Refuted: for every tree of height at least one and every leaf of it, the program
    [forge_path] turns any point [R] (there are at most [2 * windows + 1] exceptions)
    into a membership proof that ends in [R].  The program gets the tree, the
    parameters and [R]; it gets no scalar [r] with [R = leaf + r * H] and no opening of [R].
    The verifier (with or without debug assertions) takes the path, both circuits are
    satisfied, and the R1CS proofs the ordinary prover makes of them are accepted. *)
Theorem C68_any_point_refuted : forall (F0 F1 : PField) (P0 : SWCurve F1 F0) (P1 : SWCurve F0 F1) (E0 : TrEnv P0) (E1 : TrEnv P1) (enc0 : P0 -> bytes) (enc1 : P1 -> bytes)
    bp0 pc0 delta0 bp1 pc1 delta1 (prm : SRParams P0 P1) (L M : nat) (set : list P0) fuel height t oc dbg i leaf evens odds os es tr0 tr1 s0 s1 (t0 : VState P0) (t1 : VState P1),
  sl_new bp0 pc0 delta0 = Some (even_p prm) -> sl_new bp1 pc1 delta1 = Some (odd_p prm) -> sw_a P0 = 0 -> sw_a P1 = 0 ->
  from_set fuel L M prm set height = TOk t -> (N.of_nat (L ^ t_height t) < 2 ^ 64)%N -> (0 < M)%nat -> t_height t <> 0%nat ->
  nth_error set i = Some leaf -> tree_witness oc L t (N.of_nat i) 0 prm = Some (evens, odds) ->
  (forall k w, nth_error evens k = Some w -> admissible (odd_p prm) (w_child w) (os k)) ->
  (forall k w, nth_error odds k = Some w -> (k < length odds - 1)%nat -> admissible (even_p prm) (w_child w) (es k)) -> vadd leaf delta0 <> v0 ->
  session E0 pc0 bp0 tr0 s0 t0 -> session E1 pc1 bp1 tr1 s1 t1 -> honest s0 -> honest s1 -> p_def s0 = [] -> p_def s1 = [] ->
  (length (unreachable (even_p prm) leaf) <= 2 * windows (S:=F0) + 1)%nat /\ forall R, ~ In R (unreachable (even_p prm) leaf) ->
  exists s0' s1' (t0' : VState P0) (t1' : VState P1) p,
    forge_path E0 E1 enc0 enc1 prm evens odds R os es s0 s1 = Some (s0', s1', p) /\
    sr_verify E0 E1 enc0 enc1 dbg L prm t p t0 t1 = Some (t0', t1', R) /\
    satisfies (p_asg s0') (v_cs t0') /\ satisfies (p_asg s1') (v_cs t1') /\
    (forall dbg0 rnd pf trf dbg1 rr, gens_wf bp0 -> (gens_capacity bp0 < 2 ^ 32)%nat -> r1cs_prove E0 dbg0 rnd pc0 bp0 s0' = Some (Ok (pf, trf)) ->
       Forall (fun P => P <> v0) (validated_points (op_degree_of (length (p_vec s0'))) pf) -> r1cs_verify E0 dbg1 rr pf pc0 bp0 t0' = Some (Ok tt)) /\
    (forall dbg0 rnd pf trf dbg1 rr, gens_wf bp1 -> (gens_capacity bp1 < 2 ^ 32)%nat -> r1cs_prove E1 dbg0 rnd pc1 bp1 s1' = Some (Ok (pf, trf)) ->
       Forall (fun P => P <> v0) (validated_points (op_degree_of (length (p_vec s1'))) pf) -> r1cs_verify E1 dbg1 rr pf pc1 bp1 t1' = Some (Ok tt)).
Proof.
  intros F0 F1 P0 P1 E0 E1 enc0 enc1 bp0 pc0 delta0 bp1 pc1 delta1 prm L M set fuel height t oc dbg i leaf evens odds os es tr0 tr1 s0 s1 t0 t1 Hsl0 Hsl1 Ha0 Ha1 Ht Hc HM Hh Hleaf Hw Aos Aes HP Hses0 Hses1 Hh0 Hh1 Hd0 Hd1.
  destruct (sl_new_good _ _ _ _ Hsl0) as (Hg0 & Eb0 & Ep0 & Ed0), (sl_new_good _ _ _ _ Hsl1) as (Hg1 & Eb1 & Ep1 & _).
  destruct (tree_prove_opens L M prm set fuel height t oc (N.of_nat i) 0 evens odds Ht Hc HM Hw) as (leaf' & root & Hleaf' & Hr & Ho).
  assert (leaf' = leaf) as ->.
  { destruct (from_set_ok _ _ _ _ _ _ _ Ht) as (HL & d & Hd & _). rewrite (tree_ok_height _ _ _ _ _ _ Hd) in *. assert (Hi : (i < length set)%nat) by (apply nth_error_Some; rewrite Hleaf; discriminate).
    rewrite (index_small L d set i Hi (proj2 (tree_ok_le _ _ _ _ _ _ HL Hd))) in Hleaf'. congruence. }
  rewrite <- Ed0 in HP. rewrite <- Eb0, <- Ep0 in *. rewrite <- Eb1, <- Ep1 in *.
  split; [rewrite (unreachable_length _ _ Hg0); reflexivity|]. intros R HR.
  destruct (forged_total E0 E1 enc0 enc1 L prm root (t_height t) evens odds leaf R os es s0 s1 Hg0 Hg1 Ha0 Ha1 Ho Hh Aos Aes HP HR Hh0 Hh1) as (s0' & s1' & p & Hp & Hh0' & Hh1' & _ & _ & Hd0' & Hd1').
  destruct (forged_lockstep E0 E1 enc0 enc1 dbg L prm t root (t_height t) evens odds leaf R os es tr0 tr1 s0 s1 t0 t1 s0' s1' p Hg0 Hg1 Hr Ho Hh (tree_witness_root _ _ _ _ _ _ _ _ Hw Hh) ltac:(reflexivity)) as (t0' & t1' & Hv & S0 & S1);
    try assumption.
  { intros k Hk. destruct (nth_error evens k) as [w|] eqn:Ew; [|apply nth_error_None in Ew; lia]. exact (admissible_nonzero _ _ _ Hg1 (Aos k w Ew)). }
  { intros k Hk. destruct (nth_error odds k) as [w|] eqn:Ew; [|apply nth_error_None in Ew; lia]. exact (admissible_nonzero _ _ _ Hg0 (Aes k w Ew Hk)). }
  exists s0', s1', t0', t1', p. split; [exact Hp|]. split; [exact Hv|].
  destruct (session_same _ _ _ _ _ _ S0) as [C0 _], (session_same _ _ _ _ _ _ S1) as [C1 _]. rewrite <- C0, <- C1.
  split; [apply honest_satisfies, Hh0'|]. split; [apply honest_satisfies, Hh1'|]. split.
  - intros dbg0 rnd pf trf dbg1 rr Hwf Hcap Hprove Hnz. eapply C08_complete; try eassumption; [congruence|apply honest_satisfies, Hh0'].
  - intros dbg0 rnd pf trf dbg1 rr Hwf Hcap Hprove Hnz. eapply C08_complete; try eassumption; [congruence|apply honest_satisfies, Hh1'].
Qed.
Print Assumptions C68_any_point_refuted.

(** The toy tree of height 3 and its leaf number 3; the point 78, which is not among the leaves. *)
Example C68_demo : exists prm t evens odds, sl_new big0 toy_pcg toy_delta = Some (even_p prm) /\ sl_new big1 toy_pcg1 toy_delta1 = Some (odd_p prm) /\ sw_a TC0 = 0 /\ sw_a TC1 = 0 /\
  from_set 6 2 2 prm toy_set None = TOk t /\ t_height t = 3%nat /\ tree_witness true 2 t 3 0 prm = Some (evens, odds) /\ ~ In (k163 78) toy_set /\
  (forall k w, nth_error evens k = Some w -> admissible (odd_p prm) (w_child w) (toy_os k)) /\ (forall k w, nth_error odds k = Some w -> (k < length odds - 1)%nat -> admissible (even_p prm) (w_child w) (toy_es k)) /\
  vadd (k163 53) toy_delta <> v0 /\ ~ In (k163 78) (unreachable (even_p prm) (k163 53)) /\
  exists s0' s1' (t0' : VState TC0) (t1' : VState TC1) p,
    forge_path EE0 EE1 ec0 ec1 prm evens odds (k163 78) toy_os toy_es (p_new []) (p_new []) = Some (s0', s1', p) /\
    sr_verify EE0 EE1 ec0 ec1 true 2 prm t p (v_new []) (v_new []) = Some (t0', t1', k163 78) /\
    satisfies (p_asg s0') (v_cs t0') /\ satisfies (p_asg s1') (v_cs t1').
Proof.
  destruct (with_tree_spec 0 (fun prm t e o => (t_height t =? 3)%nat && adm_all (odd_p prm) toy_os e && adm_all (even_p prm) toy_es o &&
     forallb (fun P => negb (veqb P (k163 78))) (unreachable (even_p prm) (k163 53)) && forallb (fun P => negb (veqb P (k163 78))) toy_set && negb (veqb (vadd (k163 53) toy_delta) v0))%bool ltac:(vm_compute; reflexivity)) as (prm & t & e & o & H0 & H1 & Ht & Hw & H).
  apply andb_prop in H as [H HP]. apply andb_prop in H as [H Hs]. apply andb_prop in H as [H Hu]. apply andb_prop in H as [H Ao]. apply andb_prop in H as [Eh Ae]. apply Nat.eqb_eq in Eh. pose proof (adm_all_spec _ _ _ Ae) as Be. pose proof (adm_all_spec _ _ _ Ao) as Bo.
  assert (Hnot : forall l : list TC0, forallb (fun P => negb (veqb P (k163 78))) l = true -> ~ In (k163 78) l).
  { intros l Hl Hin. rewrite forallb_forall in Hl. specialize (Hl _ Hin). apply Bool.negb_true_iff in Hl. rewrite (proj2 (veqb_true _ _) eq_refl) in Hl. discriminate Hl. }
  assert (HP' : vadd (k163 53) toy_delta <> v0). { intros E. apply Bool.negb_true_iff in HP. rewrite (proj2 (veqb_true _ _) E) in HP. discriminate HP. }
  exists prm, t, e, o. split; [exact H0|]. split; [exact H1|]. split; [reflexivity|]. split; [reflexivity|]. split; [exact Ht|]. split; [exact Eh|]. split; [exact Hw|]. split; [exact (Hnot _ Hs)|]. split; [exact Be|]. split; [exact (fun k w Ek _ => Bo k w Ek)|].
  split; [exact HP'|]. split; [exact (Hnot _ Hu)|].
  destruct (C68_any_point_refuted _ _ TC0 TC1 EE0 EE1 ec0 ec1 big0 toy_pcg toy_delta big1 toy_pcg1 toy_delta1 prm 2 2 toy_set 6 None t true true 3 (k163 53) e o toy_os toy_es [] [] (p_new []) (p_new []) (v_new []) (v_new [])
    H0 H1 eq_refl eq_refl Ht ltac:(rewrite Eh; vm_compute; reflexivity) ltac:(lia) ltac:(rewrite Eh; discriminate) eq_refl Hw Be (fun k w Ek _ => Bo k w Ek) HP' (ses_new _ _ _ _) (ses_new _ _ _ _) (honest_new _) (honest_new _) eq_refl eq_refl)
    as (_ & C). destruct (C _ (Hnot _ Hu)) as (s0' & s1' & t0' & t1' & p & C1 & C2 & C3 & C4 & _).
  exists s0', s1', t0', t1', p. split; [exact C1|]. split; [exact C2|]. split; [exact C3|exact C4].
Qed.
(** The two R1CS proofs are made, their points are not the identity, and they verify. *)
Definition forged_proofs (R : TC0) (prm : SRParams TC0 TC1) (t : CurveTree TC0 TC1) (e : list (Wit PF163 TC1)) (o : list (Wit PF139 TC0)) : bool :=
  match forge_path EE0 EE1 ec0 ec1 prm e o R toy_os toy_es (p_new []) (p_new []) with
  | Some (s0, s1, p) =>
    match r1cs_prove EE0 true (toy_rnd PM163) toy_pcg big0 s0, r1cs_prove EE1 true (toy_rnd PM139) toy_pcg1 big1 s1, sr_verify EE0 EE1 ec0 ec1 true 2 prm t p (v_new []) (v_new []) with
    | Some (Ok (pf0, _)), Some (Ok (pf1, _)), Some (t0, t1, R') =>
      nz_points (length (p_vec s0)) pf0 && nz_points (length (p_vec s1)) pf1 && veqb R R' &&
      PropsSelRerand.accepted (r1cs_verify EE0 true (fp_mk (p:=PM163) 5) pf0 toy_pcg big0 t0) && PropsSelRerand.accepted (r1cs_verify EE1 true (fp_mk (p:=PM139) 5) pf1 toy_pcg1 big1 t1)
    | _, _, _ => false end
  | None => false end.
(* test data or vocabulary of statements, no code modelled *)
Definition C68_run_value : bool := Eval vm_compute in with_tree 0 (forged_proofs (k163 78)).
Example C68_run_test : C68_run_value = true.
Proof. reflexivity. Qed.
