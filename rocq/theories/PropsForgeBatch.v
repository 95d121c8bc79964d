(** * Batched membership of points that are not in the tree: C81 *)
From Verif Require Export ForgeBatch PropsSelBatch.
From Verif Require Import CSProofs UtilProofs Lockstep CSMore R1CS R1CSSpec R1CSProofs R1CSMain Toy ToyCurve PropsR1CS PropsGadgets PropsRerand PropsSelRerand.
Local Open Scope F_scope.

(** ** C81: batched membership proofs are sound *)
(** Refuted: the program [forge_mpath] turns any list of points [Rs], one for each path, into a
    batched membership proof that ends in [Rs]; for each path at most [2 * windows + 1] points
    are excepted.  The program gets no scalar [r] with [R = leaf + r * H] and no opening
    of any [R].  The verifier (with or without debug assertions) takes the paths and returns
    [Rs], both circuits are satisfied, and the R1CS proofs the ordinary prover makes of them
    are accepted. *)
Theorem C81_any_points_refuted : forall (F0 F1 : PField) (P0 : SWCurve F1 F0) (P1 : SWCurve F0 F1) (E0 : TrEnv P0) (E1 : TrEnv P1) (enc0 : P0 -> bytes)
    bp0 pc0 delta0 bp1 pc1 delta1 (prm : SRParams P0 P1) (L : nat) (set : list P0) fuel height t oc dbg indices evens odds os es tr0 tr1 s0 s1 (t0 : VState P0) (t1 : VState P1),
  sl_new bp0 pc0 delta0 = Some (even_p prm) -> sl_new bp1 pc1 delta1 = Some (odd_p prm) -> sw_a P0 = 0 -> sw_a P1 = 0 ->
  from_set fuel L (length indices) prm set height = TOk t -> (N.of_nat (L ^ t_height t) < 2 ^ 64)%N -> t_height t <> 0%nat ->
  multi_witness oc L t indices prm = Some (evens, odds) ->
  (forall i nd, nth_error evens i = Some nd -> badmissible (odd_p prm) (map w_child nd) (os i)) ->
  (forall i nd, nth_error (removelast odds) i = Some nd -> badmissible (even_p prm) (map w_child nd) (es i)) ->
  (forall j w, nth_error (last odds []) j = Some w -> vadd (w_child w) delta0 <> v0) ->
  session E0 pc0 bp0 tr0 s0 t0 -> session E1 pc1 bp1 tr1 s1 t1 -> honest s0 -> honest s1 -> p_def s0 = [] -> p_def s1 = [] ->
  (forall leaf, length (unreachable (even_p prm) leaf) <= 2 * windows (S:=F0) + 1)%nat /\
  forall Rs, length Rs = length indices -> (forall j w R, nth_error (last odds []) j = Some w -> nth_error Rs j = Some R -> ~ In R (unreachable (even_p prm) (w_child w))) ->
  exists s0' s1' (t0' : VState P0) (t1' : VState P1) p,
    forge_mpath E0 E1 enc0 (length indices) prm evens odds Rs os es s0 s1 = Some (s0', s1', p) /\
    msr_verify E0 E1 enc0 dbg L (length indices) prm t p t0 t1 = Some (t0', t1', Rs) /\
    satisfies (p_asg s0') (v_cs t0') /\ satisfies (p_asg s1') (v_cs t1') /\
    (forall dbg0 rnd pf trf dbg1 rr, gens_wf bp0 -> (gens_capacity bp0 < 2 ^ 32)%nat -> r1cs_prove E0 dbg0 rnd pc0 bp0 s0' = Some (Ok (pf, trf)) ->
       Forall (fun P => P <> v0) (validated_points (op_degree_of (length (p_vec s0'))) pf) -> r1cs_verify E0 dbg1 rr pf pc0 bp0 t0' = Some (Ok tt)) /\
    (forall dbg0 rnd pf trf dbg1 rr, gens_wf bp1 -> (gens_capacity bp1 < 2 ^ 32)%nat -> r1cs_prove E1 dbg0 rnd pc1 bp1 s1' = Some (Ok (pf, trf)) ->
       Forall (fun P => P <> v0) (validated_points (op_degree_of (length (p_vec s1'))) pf) -> r1cs_verify E1 dbg1 rr pf pc1 bp1 t1' = Some (Ok tt)).
Proof.
  intros F0 F1 P0 P1 E0 E1 enc0 bp0 pc0 delta0 bp1 pc1 delta1 prm L set fuel height t oc dbg indices evens odds os es tr0 tr1 s0 s1 t0 t1 Hsl0 Hsl1 Ha0 Ha1 Ht Hc Hh Hw Aos Aes Als Hses0 Hses1 Hh0 Hh1 Hd0 Hd1.
  destruct (sl_new_good _ _ _ _ Hsl0) as (Hg0 & Eb0 & Ep0 & Ed0), (sl_new_good _ _ _ _ Hsl1) as (Hg1 & Eb1 & Ep1 & _).
  destruct (multi_witness_paths L prm set fuel height t oc indices evens odds Ht Hc Hh Hw) as (ws & leaves & n & m & Hl & Hne & Hok & Hlv & T1 & T2 & Hn & Hm & Hpar).
  rewrite <- Ed0 in Als. rewrite <- Eb0, <- Ep0 in *. rewrite <- Eb1, <- Ep1 in *. pose proof (proj1 (from_set_ok _ _ _ _ _ _ _ Ht)) as HL.
  split; [intros leaf; rewrite (unreachable_length _ _ Hg0); reflexivity|]. intros Rs Hlen HRs.
  destruct (paths_nodes L prm t (t_height t) ws leaves n m evens odds Hne Hok Hh T1 T2 Hn Hm Hpar) as (_ & No & _ & Hlo).
  assert (Hlast : forall j w, nth_error (last odds []) j = Some w -> vadd (w_child w) (sl_delta (even_p prm)) <> v0 /\ exists R, nth_error Rs j = Some R /\ ~ In R (unreachable (even_p prm) (w_child w))).
  { intros j w Hj. split; [exact (Als j w Hj)|]. assert (Hll : length (last odds []) = length ws).
    { destruct (exists_last (l := odds)) as (o1 & o2 & ->); [destruct odds; [cbn in Hlo; lia|discriminate]|]. rewrite last_last. refine (proj1 (No (length o1) o2 _)). rewrite nth_error_app2, Nat.sub_diag by lia. reflexivity. }
    assert (Hjl : (j < length (last odds []))%nat) by (apply nth_error_Some; congruence).
    destruct (nth_error Rs j) as [R|] eqn:ER; [|apply nth_error_None in ER; lia]. exists R. split; [reflexivity|exact (HRs j w R Hj ER)]. }
  destruct (forged_m_total E0 E1 enc0 L prm t (t_height t) ws leaves n m evens odds Rs os es s0 s1 HL Hg0 Hg1 Ha0 Ha1 Hne Hok Hh T1 T2 Hn Hm Hpar Aos Aes Hlast Hh0 Hh1) as (s0' & s1' & p & Hp & Hh0' & Hh1' & _ & _ & Hd0' & Hd1').
  destruct (forged_m_lockstep E0 E1 enc0 dbg L prm t (t_height t) ws leaves n m evens odds Rs os es tr0 tr1 s0 s1 t0 t1 s0' s1' p
    HL Hg0 Hg1 Hne Hok Hh T1 T2 Hn Hm Hpar ltac:(reflexivity) Hses0 Hses1 Hp) as (t0' & t1' & Hv & S0 & S1).
  exists s0', s1', t0', t1', p. rewrite <- Hl. split; [exact Hp|]. split; [exact Hv|].
  destruct (session_same _ _ _ _ _ _ S0) as [C0 _], (session_same _ _ _ _ _ _ S1) as [C1 _]. rewrite <- C0, <- C1.
  split; [apply honest_satisfies, Hh0'|]. split; [apply honest_satisfies, Hh1'|]. split.
  - intros dbg0 rnd pf trf dbg1 rr Hwf Hcap Hprove Hnz. eapply C08_complete; try eassumption; [congruence|apply honest_satisfies, Hh0'].
  - intros dbg0 rnd pf trf dbg1 rr Hwf Hcap Hprove Hnz. eapply C08_complete; try eassumption; [congruence|apply honest_satisfies, Hh1'].
Qed.
Print Assumptions C81_any_points_refuted.

(** Two points that are not among the leaves of the toy forest. *)
Definition toy_Rs : list TC0 := [k163 78; k163 81].
(* test data or vocabulary of statements, no code modelled *)
Definition reach_b (prm : SRParams TC0 TC1) (nd : list (Wit PF139 TC0)) (Rs : list TC0) : bool :=
  forallb (fun p => negb (veqb (vadd (w_child (fst p)) toy_delta) v0) && forallb (fun P => negb (veqb P (snd p))) (unreachable (even_p prm) (w_child (fst p))))%bool (combine nd Rs).
Lemma not_in_b (l : list TC0) R : forallb (fun P => negb (veqb P R)) l = true -> ~ In R l.
Proof. intros H Hin. rewrite forallb_forall in H. specialize (H _ Hin). apply Bool.negb_true_iff in H. rewrite (proj2 (veqb_true _ _) eq_refl) in H. discriminate H. Qed.
Lemma combine_nth_error {A B : Type} : forall (l : list A) (l' : list B) j a b, nth_error l j = Some a -> nth_error l' j = Some b -> In (a, b) (combine l l').
Proof. induction l as [|x l IH]; intros [|y l'] [|j] a b Ha Hb; try discriminate; cbn in *; [injection Ha as <-; injection Hb as <-; left; reflexivity|right; eapply IH; eassumption]. Qed.
(** The leaves 3 and 2 are the ones the two paths lead to; the verifier is shown two other points. *)
Example C81_demo : exists prm t evens odds, sl_new huge0 toy_pcg toy_delta = Some (even_p prm) /\ sl_new huge1 toy_pcg1 toy_delta1 = Some (odd_p prm) /\ sw_a TC0 = 0 /\ sw_a TC1 = 0 /\
  from_set 6 2 2 prm toy_set None = TOk t /\ t_height t = 3%nat /\ multi_witness true 2 t [3; 2]%N prm = Some (evens, odds) /\ Forall (fun R => ~ In R toy_set) toy_Rs /\
  (forall i nd, nth_error evens i = Some nd -> badmissible (odd_p prm) (map w_child nd) (toy_os i)) /\
  (forall i nd, nth_error (removelast odds) i = Some nd -> badmissible (even_p prm) (map w_child nd) (toy_es i)) /\
  (forall j w, nth_error (last odds []) j = Some w -> vadd (w_child w) toy_delta <> v0) /\
  (forall j w R, nth_error (last odds []) j = Some w -> nth_error toy_Rs j = Some R -> ~ In R (unreachable (even_p prm) (w_child w))) /\
  exists s0' s1' (t0' : VState TC0) (t1' : VState TC1) p,
    forge_mpath EE0 EE1 ec0 2 prm evens odds toy_Rs toy_os toy_es (p_new []) (p_new []) = Some (s0', s1', p) /\
    msr_verify EE0 EE1 ec0 true 2 2 prm t p (v_new []) (v_new []) = Some (t0', t1', toy_Rs) /\
    satisfies (p_asg s0') (v_cs t0') /\ satisfies (p_asg s1') (v_cs t1').
Proof.
  destruct (with_mtree_spec [3; 2]%N (fun prm t e o => (t_height t =? 3)%nat && badm_all (odd_p prm) toy_os e && badm_all (even_p prm) toy_es (removelast o) && (reach_b prm (last o []) toy_Rs && (length (last o []) =? 2)%nat))%bool ltac:(vm_compute; reflexivity)) as (prm & t & e & o & H0 & H1 & Ht & Hw & H).
  apply andb_prop in H as [H Al]. apply andb_prop in H as [H Ao]. apply andb_prop in H as [Eh Ae]. apply Nat.eqb_eq in Eh. pose proof (badm_all_spec _ _ _ Ae) as Be. pose proof (badm_all_spec _ _ _ Ao) as Bo.
  apply andb_prop in Al as [Al Ell]. apply Nat.eqb_eq in Ell. unfold reach_b in Al. rewrite forallb_forall in Al.
  assert (B1 : forall j w, nth_error (last o []) j = Some w -> vadd (w_child w) toy_delta <> v0).
  { intros j w Hj E. assert (Hjl : (j < length (last o []))%nat) by (apply nth_error_Some; congruence). destruct (nth_error toy_Rs j) as [R|] eqn:ER; [|apply nth_error_None in ER; cbn in ER; lia].
    specialize (Al _ (combine_nth_error _ _ _ _ _ Hj ER)). apply andb_prop in Al as [Al _]. cbn [fst] in Al. apply Bool.negb_true_iff in Al. rewrite (proj2 (veqb_true _ _) E) in Al. discriminate Al. }
  assert (B2 : forall j w R, nth_error (last o []) j = Some w -> nth_error toy_Rs j = Some R -> ~ In R (unreachable (even_p prm) (w_child w))).
  { intros j w R Hj HR. specialize (Al _ (combine_nth_error _ _ _ _ _ Hj HR)). apply andb_prop in Al as [_ Al]. exact (not_in_b _ _ Al). }
  exists prm, t, e, o. split; [exact H0|]. split; [exact H1|]. split; [reflexivity|]. split; [reflexivity|]. split; [exact Ht|]. split; [exact Eh|]. split; [exact Hw|].
  split; [repeat constructor; apply not_in_b; vm_compute; reflexivity|]. split; [exact Be|]. split; [exact Bo|]. split; [exact B1|]. split; [exact B2|].
  destruct (C81_any_points_refuted _ _ TC0 TC1 EE0 EE1 ec0 huge0 toy_pcg toy_delta huge1 toy_pcg1 toy_delta1 prm 2 toy_set 6 None t true true [3; 2]%N e o toy_os toy_es [] [] (p_new []) (p_new []) (v_new []) (v_new [])
    H0 H1 eq_refl eq_refl Ht ltac:(rewrite Eh; vm_compute; reflexivity) ltac:(rewrite Eh; discriminate) Hw Be Bo B1 (ses_new _ _ _ _) (ses_new _ _ _ _) (honest_new _) (honest_new _) eq_refl eq_refl)
    as (_ & C). destruct (C toy_Rs eq_refl B2) as (s0' & s1' & t0' & t1' & p & C1 & C2 & C3 & C4 & _).
  exists s0', s1', t0', t1', p. split; [exact C1|]. split; [exact C2|]. split; [exact C3|exact C4].
Qed.
(** The two R1CS proofs are made, their points are not the identity, and they verify. *)
Definition forged_mproofs (prm : SRParams TC0 TC1) (t : CurveTree TC0 TC1) (e : list (list (Wit PF163 TC1))) (o : list (list (Wit PF139 TC0))) : bool :=
  match forge_mpath EE0 EE1 ec0 2 prm e o toy_Rs toy_os toy_es (p_new []) (p_new []) with
  | Some (s0, s1, p) =>
    match r1cs_prove EE0 true (toy_rnd PM163) toy_pcg huge0 s0, r1cs_prove EE1 true (toy_rnd PM139) toy_pcg1 huge1 s1, msr_verify EE0 EE1 ec0 true 2 2 prm t p (v_new []) (v_new []) with
    | Some (Ok (pf0, _)), Some (Ok (pf1, _)), Some (t0, t1, Rs) =>
      nz_points (length (p_vec s0)) pf0 && nz_points (length (p_vec s1)) pf1 && forallb (fun p => veqb (fst p) (snd p)) (combine Rs toy_Rs) &&
      PropsSelRerand.accepted (r1cs_verify EE0 true (fp_mk (p:=PM163) 5) pf0 toy_pcg huge0 t0) && PropsSelRerand.accepted (r1cs_verify EE1 true (fp_mk (p:=PM139) 5) pf1 toy_pcg1 huge1 t1)
    | _, _, _ => false end
  | None => false end.
(* test data or vocabulary of statements, no code modelled *)
Definition C81_run_value : bool := Eval vm_compute in with_mtree [3; 2]%N forged_mproofs.
Example C81_run_test : C81_run_value = true.
Proof. reflexivity. Qed.
