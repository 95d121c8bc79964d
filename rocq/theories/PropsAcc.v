(** * The accumulator and its public element: C75, C76 *)
From Verif Require Export AccProofs AccCount PropsCounterfeit.
From Verif Require Import CSProofs UtilProofs Lockstep CSMore R1CS R1CSSpec R1CSProofs R1CSMain SoundSpec Toy ToyCurve GadgetProofs CSLogic PropsGadgets PropsSingle PropsRerand PropsSelRerand.
Local Open Scope F_scope.

(** ** C75: membership in the accumulator *)
(** Complete: for every tree of height at least one, every leaf in it and every element of
    the leaf, the prover builds its circuits, and every pair of proofs of these circuits is
    accepted in batches of any size, whatever the weights are. *)
Theorem C75_complete : forall (F0 F1 : PField) (P0 : SWCurve F1 F0) (P1 : SWCurve F0 F1) (E0 : TrEnv P0) (E1 : TrEnv P1) (enc0 : P0 -> bytes) (enc1 : P1 -> bytes)
    bp0 pc0 delta0 bp1 pc1 delta1 (prm : SRParams P0 P1) (L M : nat) (set : list P0) fuel height t oc i elements leaf element evens odds os es,
  sl_new bp0 pc0 delta0 = Some (even_p prm) -> sl_new bp1 pc1 delta1 = Some (odd_p prm) -> sw_a P0 = 0 -> sw_a P1 = 0 ->
  gens_wf bp0 -> (gens_capacity bp0 < 2 ^ 32)%nat -> gens_wf bp1 -> (gens_capacity bp1 < 2 ^ 32)%nat ->
  from_set fuel L M prm set height = TOk t -> (N.of_nat (L ^ t_height t) < 2 ^ 64)%N -> (0 < M)%nat -> t_height t <> 0%nat ->
  acc_leaf prm elements = Some leaf -> nth_error set i = Some leaf -> In element elements -> tree_witness oc L t (N.of_nat i) 0 prm = Some (evens, odds) ->
  (forall k w, nth_error evens k = Some w -> admissible (odd_p prm) (w_child w) (os k)) -> (forall k w, nth_error odds k = Some w -> admissible (even_p prm) (w_child w) (es k)) ->
  exists s0 s1 path, acc_circuits E0 E1 enc0 enc1 oc L prm t (N.of_nat i) elements element os es = Some (s0, s1, path) /\
    forall dbg0 rnd0 pf0 dbg1 rnd1 pf1, good_proof E0 dbg0 rnd0 pc0 bp0 s0 pf0 -> good_proof E1 dbg1 rnd1 pc1 bp1 s1 pf1 ->
    forall dbg rr0 ws0 rr1 ws1, length rr0 = S (length ws0) -> length rr1 = S (length ws1) ->
      acc_verify E0 E1 enc0 enc1 dbg L prm t (length elements) element path pf0 pf1 rr0 ws0 rr1 ws1 = Some tt.
Proof.
  intros F0 F1 P0 P1 E0 E1 enc0 enc1 bp0 pc0 delta0 bp1 pc1 delta1 prm L M set fuel height t oc i elements leaf element evens odds os es Hsl0 Hsl1 Ha0 Ha1 W0 B0 W1 B1 Ht Hc HM Hh Hl Hleaf Hin Hw Aos Aes.
  destruct (sl_new_good _ _ _ _ Hsl0) as (Hg0 & Eb0 & Ep0 & _), (sl_new_good _ _ _ _ Hsl1) as (Hg1 & Eb1 & Ep1 & _). rewrite <- Eb0, <- Ep0, <- Eb1, <- Ep1 in *.
  destruct (walk_honest E0 E1 enc0 enc1 oc L M prm set fuel height t i leaf evens odds os es Hg0 Hg1 Ha0 Ha1 Ht Hc HM Hh Hleaf Hw Aos Aes) as (s0 & s1 & path & r & Hp & Hh0 & Hh1 & Hd0 & Hd1 & Hwk & Hsel).
  pose proof (leaf_blinding prm elements leaf r Hl) as Hcm. rewrite <- Hsel in Hcm.
  destruct (open_total E0 (P1 := P1) prm s0 elements r (pa_selected path) element Hh0 Hcm Hin) as (s0' & Hop & Hh0' & Hd0').
  exists s0', s1, path. unfold acc_circuits. rewrite Hp. cbn [opt_bind]. rewrite Hop. cbn [opt_bind]. rewrite (proj2 (veqb_true _ _) eq_refl). split; [reflexivity|].
  intros dbg0 rnd0 pf0 dbg1 rnd1 pf1 G0 G1 dbg rr0 ws0 rr1 ws1 N0 N1. eapply acc_finish; try eassumption. congruence.
Qed.

(** The circuit: if the constraints of the verifier are satisfied, the element is one of
    the values committed to in the commitment of the path. *)
Theorem C75_circuit : forall (F0 F1 : PField) (P0 : SWCurve F1 F0) (P1 : SWCurve F0 F1) (E0 : TrEnv P0) (enc1 : P1 -> bytes) L (prm : SRParams P0 P1) t width element srv leaf (te : VState P0) w,
  acc_even E0 enc1 L prm t width element srv leaf = Some te -> w One = 1 -> satisfies w (v_cs te) ->
  exists c j, nth_error (v_vec te) c = Some (leaf, width) /\ (j < width)%nat /\ w (VectorCommit c j) = element.
Proof.
  intros F0 F1 P0 P1 E0 enc1 L prm t width element srv leaf te w H H1 Hs. unfold acc_even in H. destruct (even_gadget E0 enc1 L prm t srv (v_new acc_transcript)) as [t0|]; [|discriminate H]. cbn [opt_bind] in H.
  destruct (v_commit_vec E0 t0 width leaf) as [t1 vars] eqn:Ec. destruct (vrun E0 _ t1) as [[t2 []]|] eqn:R; [|discriminate H]. cbn [opt_bind] in H. apply Some_inj in H. subst t2.
  pose proof (C29_select_sound F0 P0 E0 _ _ _ _ _ w (v_cs te) R (incl_refl _) Hs) as Hin. rewrite lc_val_const in Hin by exact H1.
  apply in_map_iff in Hin as (lc & Hv & Hin). apply in_map_iff in Hin as (v & <- & Hin). rewrite lc_val_var in Hv.
  pose proof (commit_vars E0 t0 width leaf) as Hvars. rewrite Ec in Hvars. cbn [snd] in Hvars. subst vars. apply in_map_iff in Hin as (j & <- & Hj). apply in_seq in Hj.
  exists (length (v_vec t0)), j. split; [|split; [lia|exact Hv]].
  assert (Ev : v_vec te = v_vec t1). { destruct (map lc_var (map (VectorCommit (length (v_vec t0))) (seq 0 width))) as [|x xs] eqn:Ex; [discriminate R|]. rewrite <- Ex in R. destruct (seq 0 width) as [|a l]; [discriminate Ex|]. cbn [map select] in R. rewrite loop_vrun in R. apply Some_inj in R. injection R as <-. reflexivity. }
  rewrite Ev. apply (f_equal fst) in Ec. cbn [fst] in Ec. subst t1. unfold v_commit_vec. cbn [fst v_vec]. rewrite nth_error_app2 by lia. rewrite Nat.sub_diag. reflexivity.
Qed.

(** Refuted: only elements of leaves are accepted.  With the forged paths of C68 every
    element is accepted in every tree of height at least one: the attacker commits to any
    list of the right length which contains the element. *)
Theorem C75_any_element_refuted : forall (F0 F1 : PField) (P0 : SWCurve F1 F0) (P1 : SWCurve F0 F1) (E0 : TrEnv P0) (E1 : TrEnv P1) (enc0 : P0 -> bytes) (enc1 : P1 -> bytes)
    bp0 pc0 delta0 bp1 pc1 delta1 (prm : SRParams P0 P1) (L M : nat) (set : list P0) fuel height t oc i leaf elements blinding element R evens odds os es,
  sl_new bp0 pc0 delta0 = Some (even_p prm) -> sl_new bp1 pc1 delta1 = Some (odd_p prm) -> sw_a P0 = 0 -> sw_a P1 = 0 ->
  gens_wf bp0 -> (gens_capacity bp0 < 2 ^ 32)%nat -> gens_wf bp1 -> (gens_capacity bp1 < 2 ^ 32)%nat ->
  from_set fuel L M prm set height = TOk t -> (N.of_nat (L ^ t_height t) < 2 ^ 64)%N -> (0 < M)%nat -> t_height t <> 0%nat ->
  nth_error set i = Some leaf -> tree_witness oc L t (N.of_nat i) 0 prm = Some (evens, odds) ->
  (forall k w, nth_error evens k = Some w -> admissible (odd_p prm) (w_child w) (os k)) ->
  (forall k w, nth_error odds k = Some w -> (k < length odds - 1)%nat -> admissible (even_p prm) (w_child w) (es k)) -> vadd leaf delta0 <> v0 ->
  In element elements -> sl_commit (even_p prm) elements blinding 0 = Some R -> ~ In R (unreachable (even_p prm) leaf) ->
  exists s0 s1 path, acc_forge E0 E1 enc0 enc1 prm evens odds elements blinding element R os es = Some (s0, s1, path) /\
    forall dbg0 rnd0 pf0 dbg1 rnd1 pf1, good_proof E0 dbg0 rnd0 pc0 bp0 s0 pf0 -> good_proof E1 dbg1 rnd1 pc1 bp1 s1 pf1 ->
    forall dbg rr0 ws0 rr1 ws1, length rr0 = S (length ws0) -> length rr1 = S (length ws1) ->
      acc_verify E0 E1 enc0 enc1 dbg L prm t (length elements) element path pf0 pf1 rr0 ws0 rr1 ws1 = Some tt.
Proof.
  intros F0 F1 P0 P1 E0 E1 enc0 enc1 bp0 pc0 delta0 bp1 pc1 delta1 prm L M set fuel height t oc i leaf elements blinding element R evens odds os es Hsl0 Hsl1 Ha0 Ha1 W0 B0 W1 B1 Ht Hc HM Hh Hleaf Hw Aos Aes HP Hin HR Hnot.
  destruct (sl_new_good _ _ _ _ Hsl0) as (Hg0 & Eb0 & Ep0 & Ed0), (sl_new_good _ _ _ _ Hsl1) as (Hg1 & Eb1 & Ep1 & _). rewrite <- Eb0, <- Ep0, <- Eb1, <- Ep1, <- Ed0 in *.
  destruct (walk_forged E0 E1 enc0 enc1 oc L M prm set fuel height t i leaf evens odds R os es Hg0 Hg1 Ha0 Ha1 Ht Hc HM Hh Hleaf Hw Aos Aes HP Hnot) as (s0 & s1 & path & Hp & Hh0 & Hh1 & Hd0 & Hd1 & Hwk & Hsel).
  rewrite <- Hsel in HR. destruct (open_total E0 (P1 := P1) prm s0 elements blinding (pa_selected path) element Hh0 HR Hin) as (s0' & Hop & Hh0' & Hd0').
  exists s0', s1, path. unfold acc_forge. rewrite Hp. cbn [opt_bind]. rewrite Hop. cbn [opt_bind fst]. split; [reflexivity|].
  intros dbg0 rnd0 pf0 dbg1 rnd1 pf1 G0 G1 dbg rr0 ws0 rr1 ws1 N0 N1. eapply acc_finish; try eassumption. congruence.
Qed.

(** Unused places open to zero: a leaf with fewer elements than the width of leaves is also
    the commitment to these elements followed by zeros.  So 0 is accepted although it is no
    element of the leaf (accumulator.rs 79-81 says so for empty leaves and excludes 0). *)
Theorem C75_unused_refuted : forall (F0 F1 : PField) (P0 : SWCurve F1 F0) (P1 : SWCurve F0 F1) (E0 : TrEnv P0) (E1 : TrEnv P1) (enc0 : P0 -> bytes) (enc1 : P1 -> bytes)
    bp0 pc0 delta0 bp1 pc1 delta1 (prm : SRParams P0 P1) (L M : nat) (set : list P0) fuel height t oc i elements width leaf evens odds os es G,
  sl_new bp0 pc0 delta0 = Some (even_p prm) -> sl_new bp1 pc1 delta1 = Some (odd_p prm) -> sw_a P0 = 0 -> sw_a P1 = 0 ->
  gens_wf bp0 -> (gens_capacity bp0 < 2 ^ 32)%nat -> gens_wf bp1 -> (gens_capacity bp1 < 2 ^ 32)%nat ->
  from_set fuel L M prm set height = TOk t -> (N.of_nat (L ^ t_height t) < 2 ^ 64)%N -> (0 < M)%nat -> t_height t <> 0%nat ->
  acc_leaf prm elements = Some leaf -> nth_error set i = Some leaf -> (length elements < width)%nat -> nth_error (G_vec bp0) 0 = Some G -> (width <= length G)%nat ->
  tree_witness oc L t (N.of_nat i) 0 prm = Some (evens, odds) ->
  (forall k w, nth_error evens k = Some w -> admissible (odd_p prm) (w_child w) (os k)) -> (forall k w, nth_error odds k = Some w -> admissible (even_p prm) (w_child w) (es k)) ->
  exists s0 s1 path, acc_circuits E0 E1 enc0 enc1 oc L prm t (N.of_nat i) (elements ++ repeat 0 (width - length elements)) 0 os es = Some (s0, s1, path) /\
    forall dbg0 rnd0 pf0 dbg1 rnd1 pf1, good_proof E0 dbg0 rnd0 pc0 bp0 s0 pf0 -> good_proof E1 dbg1 rnd1 pc1 bp1 s1 pf1 ->
    forall dbg rr0 ws0 rr1 ws1, length rr0 = S (length ws0) -> length rr1 = S (length ws1) ->
      acc_verify E0 E1 enc0 enc1 dbg L prm t width 0 path pf0 pf1 rr0 ws0 rr1 ws1 = Some tt.
Proof.
  intros F0 F1 P0 P1 E0 E1 enc0 enc1 bp0 pc0 delta0 bp1 pc1 delta1 prm L M set fuel height t oc i elements width leaf evens odds os es G Hsl0 Hsl1 Ha0 Ha1 W0 B0 W1 B1 Ht Hc HM Hh Hl Hleaf Hlt HG HGl Hw Aos Aes.
  set (elements' := elements ++ repeat 0 (width - length elements)). assert (El : length elements' = width) by (unfold elements'; rewrite app_length, repeat_length; lia).
  destruct (sl_new_good _ _ _ _ Hsl0) as (_ & Eb0 & _).
  destruct (C75_complete F0 F1 P0 P1 E0 E1 enc0 enc1 bp0 pc0 delta0 bp1 pc1 delta1 prm L M set fuel height t oc i elements' leaf 0 evens odds os es Hsl0 Hsl1 Ha0 Ha1 W0 B0 W1 B1 Ht Hc HM Hh) as (s0 & s1 & path & Hp & Hv).
  { unfold acc_leaf, elements'. rewrite <- Eb0 in HG. eapply commit_zeros; [exact Hl|exact HG|lia]. }
  { exact Hleaf. }
  { unfold elements'. apply in_app_iff. right. destruct (width - length elements)%nat eqn:Ew; [lia|]. left. reflexivity. }
  { exact Hw. } { exact Aos. } { exact Aes. }
  exists s0, s1, path. split; [exact Hp|]. rewrite El in Hv. exact Hv.
Qed.
(** The code's own guard: verifying no proof at all panics, as does an accumulator without
    elements. *)
Theorem C75_empty_panics : forall (F0 F1 : PField) (P0 : SWCurve F1 F0) (P1 : SWCurve F0 F1) (E0 : TrEnv P0) (E1 : TrEnv P1) (enc0 : P0 -> bytes) (enc1 : P1 -> bytes) dbg oc L (prm : SRParams P0 P1) t index element path pf0 pf1 width rr0 ws0 rr1 ws1 os es,
  acc_verify E0 E1 enc0 enc1 dbg L prm t width element path pf0 pf1 [] ws0 rr1 ws1 = None /\
  acc_circuits E0 E1 enc0 enc1 oc L prm t index [] element os es = None /\
  acc_verify E0 E1 enc0 enc1 dbg L prm t 0 element path pf0 pf1 rr0 ws0 rr1 ws1 = None.
Proof.
  intros. split; [reflexivity|]. split.
  - unfold acc_circuits. destruct (tree_prove _ _ _ _ _ _ _ _ _ _ _ _ _ _ _ _) as [[[s0 s1] [p r]]|]; [|reflexivity]. cbn [opt_bind]. unfold acc_open.
    destruct (p_commit_vec E0 _ _ s0 [] r) as [[s2 [c us]]|] eqn:Ec; [|reflexivity]. cbn [opt_bind].
    destruct (p_commit_vec_spec E0 _ _ _ _ _ _ _ _ Ec) as (_ & _ & -> & _). reflexivity.
  - unfold acc_verify. destruct rr0 as [|rr rr0]; [reflexivity|]. cbn [map all_some].
    assert (H : acc_entry0 E0 enc1 dbg L prm t 0 element path pf0 rr = None).
    { unfold acc_entry0, acc_even. destruct (verification_commitments t path) as [srv|]; [|reflexivity]. cbn [opt_bind]. destruct (even_gadget _ _ _ _ _ _ _) as [t0|]; reflexivity. }
    rewrite H. reflexivity.
Qed.
Print Assumptions C75_complete.
Print Assumptions C75_circuit.
Print Assumptions C75_any_element_refuted.
Print Assumptions C75_unused_refuted.
Print Assumptions C75_empty_panics.

(** ** C76: proofs are bound to the public inputs of the circuit *)
(** Refuted in general: the constants of the constraints are neither read by the prover nor
    absorbed by the transcript.  A proof made from a one-phase circuit with constraints
    [p_cs s] (satisfied or not) meets the same challenges in every circuit [cs] which
    differs from it only in the constants, and is accepted there exactly if [cs] holds in
    the single linear combination of the challenge [z] (up to [x = 0] and the scalar of the
    verifier being zero).  The challenge is known before the constants have to be chosen. *)
Theorem C76_constants_refuted : forall (F : Field) (V : VSpace F) (E : TrEnv V) pc g tr s (t : VState V) dbg rnd pf trf,
  session E pc g tr s t -> p_def s = [] -> gens_wf g -> (gens_capacity g < 2 ^ 32)%nat -> pcB pc <> v0 ->
  r1cs_prove E dbg rnd pc g s = Some (Ok (pf, trf)) -> Forall (fun P => P <> v0) (validated_points (op_degree_of (length (p_vec s))) pf) ->
  exists y z x, forall cs, same_weights (p_cs s) cs ->
    (exists t2, r1cs_challenges E pf (v_restated t cs) = Some (t2, y, z, x)) /\
    forall dbg' rr, r1cs_verify E dbg' rr pf pc g (v_restated t cs) = Some (Ok tt) <-> rr = 0 \/ x = 0 \/ batched_constraints (p_asg s) z cs = 0.
Proof.
  intros F V E pc g tr s t dbg rnd pf trf Hs Hd Hw Hc HB Hp Hnz. destruct (late_exact E pc g tr s t dbg rnd pf trf Hs Hd Hw Hc HB Hp Hnz) as (t2 & y & z & x & _ & H).
  exists y, z, x. intros cs Hcs. destruct (H cs Hcs) as [H1 H2]. eauto.
Qed.

(** Refuted for the accumulator: the prover of the repository is run with an element [e0]
    which is not in the leaf.  It does not notice (the circuit is not satisfied), and for
    all but few challenges [z] the proofs it returns are accepted for another element that
    is not in the leaf either.  The verifier's challenge is computed from the proof
    alone: it is the same for all elements. *)
Theorem C76_late_element_refuted : forall (F0 F1 : PField) (P0 : SWCurve F1 F0) (P1 : SWCurve F0 F1) (E0 : TrEnv P0) (E1 : TrEnv P1) (enc0 : P0 -> bytes) (enc1 : P1 -> bytes)
    bp0 pc0 delta0 bp1 pc1 delta1 (prm : SRParams P0 P1) (L M : nat) (set : list P0) fuel height t oc i elements leaf e0 evens odds os es,
  sl_new bp0 pc0 delta0 = Some (even_p prm) -> sl_new bp1 pc1 delta1 = Some (odd_p prm) -> sw_a P0 = 0 -> sw_a P1 = 0 -> pcB pc0 <> v0 ->
  gens_wf bp0 -> (gens_capacity bp0 < 2 ^ 32)%nat -> gens_wf bp1 -> (gens_capacity bp1 < 2 ^ 32)%nat ->
  from_set fuel L M prm set height = TOk t -> (N.of_nat (L ^ t_height t) < 2 ^ 64)%N -> (0 < M)%nat -> t_height t <> 0%nat ->
  acc_leaf prm elements = Some leaf -> nth_error set i = Some leaf -> (2 <= length elements)%nat -> ~ In e0 elements -> tree_witness oc L t (N.of_nat i) 0 prm = Some (evens, odds) ->
  (forall k w, nth_error evens k = Some w -> admissible (odd_p prm) (w_child w) (os k)) -> (forall k w, nth_error odds k = Some w -> admissible (even_p prm) (w_child w) (es k)) ->
  exists (Unlucky : F0 -> Prop) s0 s1 path srv, at_most ((length elements + 1) * (2 * (length elements - 1))) Unlucky /\
    acc_circuits E0 E1 enc0 enc1 oc L prm t (N.of_nat i) elements e0 os es = Some (s0, s1, path) /\ verification_commitments t path = Some srv /\
    forall dbg0 rnd0 pf0 dbg1 rnd1 pf1, good_proof E0 dbg0 rnd0 pc0 bp0 s0 pf0 -> good_proof E1 dbg1 rnd1 pc1 bp1 s1 pf1 ->
    exists y z x,
      (forall e, exists te te', acc_even E0 enc1 L prm t (length elements) e srv (pa_selected path) = Some te /\ r1cs_challenges E0 pf0 te = Some (te', y, z, x)) /\
      (~ Unlucky z -> let e := late_element e0 elements z in ~ In e elements /\
        forall dbg rr0 ws0 rr1 ws1, length rr0 = S (length ws0) -> length rr1 = S (length ws1) ->
          acc_verify E0 E1 enc0 enc1 dbg L prm t (length elements) e path pf0 pf1 rr0 ws0 rr1 ws1 = Some tt).
Proof.
  intros F0 F1 P0 P1 E0 E1 enc0 enc1 bp0 pc0 delta0 bp1 pc1 delta1 prm L M set fuel height t oc i elements leaf e0 evens odds os es Hsl0 Hsl1 Ha0 Ha1 HB W0 B0 W1 B1 Ht Hc HM Hh Hl Hleaf Hk Hnot Hw Aos Aes.
  exists (unlucky e0 elements). destruct (sl_new_good _ _ _ _ Hsl0) as (Hg0 & Eb0 & Ep0 & _), (sl_new_good _ _ _ _ Hsl1) as (Hg1 & Eb1 & Ep1 & _). rewrite <- Eb0, <- Ep0, <- Eb1, <- Ep1 in *.
  destruct (walk_honest E0 E1 enc0 enc1 oc L M prm set fuel height t i leaf evens odds os es Hg0 Hg1 Ha0 Ha1 Ht Hc HM Hh Hleaf Hw Aos Aes) as (s0 & s1 & path & r & Hp & Hh0 & Hh1 & Hd0 & Hd1 & (srv & t0 & t1 & V1 & V2 & V3 & S0 & S1) & Hsel).
  pose proof (leaf_blinding prm elements leaf r Hl) as Hcm. rewrite <- Hsel in Hcm.
  destruct (commit_list E0 (even_p prm) s0 elements r (pa_selected path) Hh0 Hcm) as (s2 & us & Ec & Hh2 & _ & Eus & Hi & Hv & Hd2).
  assert (Hne : us <> []). { intros E. apply (f_equal (@length _)) in E. rewrite Eus, map_length, seq_length in E. cbn in E. lia. }
  assert (Elen : length us = length elements) by (rewrite Eus, map_length, seq_length; reflexivity).
  destruct (select_any E0 e0 us s2 Hh2 Hne Hi) as (s3 & p & R & _). 
  pose proof (session_locked E0 (sl_pc (even_p prm)) (sl_bp (even_p prm)) acc_transcript) as HR.
  destruct (lk_commit_vec _ _ _ _ HR _ _ _ _ _ _ _ S0 Ec) as [Hu S2]. destruct (v_commit_vec E0 t0 (length elements) (pa_selected path)) as [t2 us'] eqn:Ev. cbn [fst snd] in Hu, S2. subst us'.
  exists (p_constrain s3 p), s1, path, srv. split; [apply few_unlucky; assumption|]. split.
  { unfold acc_circuits. rewrite Hp. cbn [opt_bind]. unfold acc_open. rewrite Ec. cbn [opt_bind]. rewrite R. cbn [opt_bind]. rewrite (proj2 (veqb_true _ _) eq_refl). reflexivity. }
  split; [exact V1|]. intros dbg0 rnd0 pf0 dbg1 rnd1 pf1 [(trf & Hpr) Hnz] G1. pose proof (proof_lengths E0 _ _ _ _ _ _ _ Hpr) as L0.
  destruct (late_select E0 _ _ acc_transcript s2 t2 us e0 dbg0 rnd0 pf0 trf _ S2 Hh2 ltac:(congruence) Hne Hi W0 B0 HB R Hpr Hnz) as (y & z & x & Hlate).
  exists y, z, x. assert (Heven : forall e te, vrun E0 (select (lc_const e) (map lc_var us)) t2 = Some (te, tt) -> acc_even E0 enc1 L prm t (length elements) e srv (pa_selected path) = Some te).
  { intros e te H. unfold acc_even. rewrite V2. cbn [opt_bind]. rewrite Ev, H. reflexivity. }
  split. { intros e. destruct (Hlate e) as (te & te' & Hte & Hch & _). eauto. }
  intros Hz. cbv zeta. set (e := late_element e0 elements z). destruct (Hlate e) as (te & te' & Hte & Hch & Hacc). rewrite Elen, Hv in Hacc.
  assert (Hm : peval (marks (length elements)) z <> 0) by (intros E; apply Hz; left; exact E).
  assert (He : (e - e0) * peval (marks (length elements)) z = differences e0 elements * fpow z (2 * (length elements - 1))) by (apply late_solves; exact Hm).
  split. { intros Hin. apply Hz. right. apply Exists_exists. exists e. split; [exact Hin|exact He]. }
  intros dbg rr0 ws0 rr1 ws1 N0 N1. destruct (good_verify E1 dbg1 rnd1 _ _ _ _ _ pf1 S1 Hd1 Hh1 W1 B1 G1) as [L1 A1].
  eapply (acc_accepts E0 E1 enc0 enc1 dbg L prm t (length elements) e path srv te t1); eauto using session_def.
  - rewrite (select_def E0 _ _ _ _ Hte). eapply session_def; [exact S2|congruence].
  - intros rr. apply Hacc. right. right. right. exact He.
Qed.
Print Assumptions C76_constants_refuted.
Print Assumptions C76_late_element_refuted.

(** ** The hypotheses are satisfiable: a leaf with the elements 11, 22 and 33 *)
Definition toy_elements : list PF163 := [f163 11; f163 22; f163 33].
(* test data or vocabulary of statements, no code modelled *)
Definition toy_acc (leaf : TC0) : list TC0 := [k163 20; leaf; k163 42; k163 53; k163 64].
(** A computation about the tree of height 3 with this leaf at position 1 *)
Definition with_acc (f : SRParams TC0 TC1 -> CurveTree TC0 TC1 -> TC0 -> list (Wit PF163 TC1) -> list (Wit PF139 TC0) -> bool) : bool :=
  match sl_new pos0 toy_pcg toy_delta, sl_new pos1 toy_pcg1 toy_delta1 with
  | Some a, Some b => match acc_leaf (mkSRP a b) toy_elements with
    | Some leaf => match from_set 6 2 1 (mkSRP a b) (toy_acc leaf) None with
      | TOk t => match tree_witness true 2 t 1 0 (mkSRP a b) with
        | Some (e, o) => ((t_height t =? 3)%nat && adm_all (odd_p (mkSRP a b)) toy_os e && adm_all (even_p (mkSRP a b)) toy_es o && f (mkSRP a b) t leaf e o)%bool
        | None => false end
      | _ => false end
    | None => false end
  | _, _ => false end.
Lemma with_acc_spec f : with_acc f = true -> exists prm t leaf e o, sl_new pos0 toy_pcg toy_delta = Some (even_p prm) /\ sl_new pos1 toy_pcg1 toy_delta1 = Some (odd_p prm) /\ acc_leaf prm toy_elements = Some leaf /\
  from_set 6 2 1 prm (toy_acc leaf) None = TOk t /\ t_height t = 3%nat /\ tree_witness true 2 t 1 0 prm = Some (e, o) /\
  (forall k w, nth_error e k = Some w -> admissible (odd_p prm) (w_child w) (toy_os k)) /\ (forall k w, nth_error o k = Some w -> admissible (even_p prm) (w_child w) (toy_es k)) /\ f prm t leaf e o = true.
Proof.
  unfold with_acc. intros H. destruct (sl_new pos0 toy_pcg toy_delta) as [a|]; [|discriminate H]. destruct (sl_new pos1 toy_pcg1 toy_delta1) as [b|]; [|discriminate H].
  destruct (acc_leaf (mkSRP a b) toy_elements) as [leaf|] eqn:El; [|discriminate H]. destruct (from_set 6 2 1 (mkSRP a b) (toy_acc leaf) None) as [t| |] eqn:Et; try discriminate H.
  destruct (tree_witness true 2 t 1 0 (mkSRP a b)) as [[e o]|] eqn:Ew; [|discriminate H]. apply andb_prop in H as [H Hf]. apply andb_prop in H as [H Ao]. apply andb_prop in H as [Hh Ae]. apply Nat.eqb_eq in Hh.
  exists (mkSRP a b), t, leaf, e, o. split; [reflexivity|]. split; [reflexivity|]. split; [exact El|]. split; [exact Et|]. split; [exact Hh|]. split; [exact Ew|]. split; [exact (adm_all_spec _ _ _ Ae)|]. split; [exact (adm_all_spec _ _ _ Ao)|exact Hf].
Qed.
Lemma with_acc_demo : with_acc (fun prm t leaf e o => negb (veqb (vadd leaf toy_delta) v0) &&
  match sl_commit (even_p prm) [f163 99; f163 0; f163 0] (f163 6) 0 with Some R => forallb (fun P => negb (veqb P R)) (unreachable (even_p prm) leaf) | None => false end)%bool = true.
Proof. vm_compute. reflexivity. Qed.

(* test data or vocabulary of statements, no code modelled *)
Definition toy_extra : list PF163 := [f163 99; f163 0; f163 0].
Example C75_demo : exists (prm : SRParams TC0 TC1) t leaf s0 s1 path, from_set 6 2 1 prm (toy_acc leaf) None = TOk t /\ t_height t = 3%nat /\ acc_leaf prm toy_elements = Some leaf /\
  acc_circuits EE0 EE1 ec0 ec1 true 2 prm t 1 toy_elements (f163 22) toy_os toy_es = Some (s0, s1, path) /\
  forall dbg0 rnd0 pf0 dbg1 rnd1 pf1, good_proof EE0 dbg0 rnd0 toy_pcg pos0 s0 pf0 -> good_proof EE1 dbg1 rnd1 toy_pcg1 pos1 s1 pf1 ->
    acc_verify EE0 EE1 ec0 ec1 true 2 prm t 3 (f163 22) path pf0 pf1 [f163 3; f163 4] [f163 5] [f139 3; f139 4] [f139 5] = Some tt.
Proof.
  destruct (with_acc_spec _ with_acc_demo) as (prm & t & leaf & e & o & H0 & H1 & Hl & Ht & Hh & Hw & Ae & Ao & _).
  destruct (C75_complete _ _ TC0 TC1 EE0 EE1 ec0 ec1 pos0 toy_pcg toy_delta pos1 toy_pcg1 toy_delta1 prm 2 1 (toy_acc leaf) 6 None t true 1 toy_elements leaf (f163 22) e o toy_os toy_es
    H0 H1 eq_refl eq_refl (gens_wf_new _ _ _ _ _) cap_256 (gens_wf_new _ _ _ _ _) cap_256 Ht ltac:(rewrite Hh; vm_compute; reflexivity) ltac:(lia) ltac:(rewrite Hh; discriminate) Hl eq_refl ltac:(right; left; reflexivity) Hw Ae Ao) as (s0 & s1 & path & Hp & Hv).
  exists prm, t, leaf, s0, s1, path. split; [exact Ht|]. split; [exact Hh|]. split; [exact Hl|]. split; [exact Hp|]. intros. eapply Hv; try eassumption; reflexivity.
Qed.
Example C75_any_element_demo : exists (prm : SRParams TC0 TC1) t leaf e o R s0 s1 path, from_set 6 2 1 prm (toy_acc leaf) None = TOk t /\ acc_leaf prm toy_elements = Some leaf /\ ~ In (f163 99) toy_elements /\
  acc_forge EE0 EE1 ec0 ec1 prm e o toy_extra (f163 6) (f163 99) R toy_os toy_es = Some (s0, s1, path) /\
  forall dbg0 rnd0 pf0 dbg1 rnd1 pf1, good_proof EE0 dbg0 rnd0 toy_pcg pos0 s0 pf0 -> good_proof EE1 dbg1 rnd1 toy_pcg1 pos1 s1 pf1 ->
    acc_verify EE0 EE1 ec0 ec1 true 2 prm t 3 (f163 99) path pf0 pf1 [f163 3; f163 4] [f163 5] [f139 3; f139 4] [f139 5] = Some tt.
Proof.
  destruct (with_acc_spec _ with_acc_demo) as (prm & t & leaf & e & o & H0 & H1 & Hl & Ht & Hh & Hw & Ae & Ao & Hf). apply andb_prop in Hf as [HP Hu]. destruct (sl_commit (even_p prm) _ (f163 6) 0) as [R|] eqn:ER; [|discriminate Hu].
  destruct (C75_any_element_refuted _ _ TC0 TC1 EE0 EE1 ec0 ec1 pos0 toy_pcg toy_delta pos1 toy_pcg1 toy_delta1 prm 2 1 (toy_acc leaf) 6 None t true 1 leaf toy_extra (f163 6) (f163 99) R e o toy_os toy_es
    H0 H1 eq_refl eq_refl (gens_wf_new _ _ _ _ _) cap_256 (gens_wf_new _ _ _ _ _) cap_256 Ht ltac:(rewrite Hh; vm_compute; reflexivity) ltac:(lia) ltac:(rewrite Hh; discriminate) eq_refl Hw Ae (fun k w Ek _ => Ao k w Ek)) as (s0 & s1 & path & Hp & Hv).
  { intros E. apply Bool.negb_true_iff in HP. rewrite (proj2 (veqb_true _ _) E) in HP. discriminate HP. }
  { left. reflexivity. } { exact ER. }
  { intros Hin. rewrite forallb_forall in Hu. specialize (Hu _ Hin). apply Bool.negb_true_iff in Hu. rewrite (proj2 (veqb_true _ _) eq_refl) in Hu. discriminate Hu. }
  exists prm, t, leaf, e, o, R, s0, s1, path. split; [exact Ht|]. split; [exact Hl|]. split; [intros [E|[E|[E|[]]]]; discriminate E|]. split; [exact Hp|]. intros. eapply Hv; try eassumption; reflexivity.
Qed.
(** The leaf of three elements in an accumulator whose leaves may have five. *)
Example C75_unused_demo : exists (prm : SRParams TC0 TC1) t leaf s0 s1 path, from_set 6 2 1 prm (toy_acc leaf) None = TOk t /\ acc_leaf prm toy_elements = Some leaf /\ ~ In (0 : PF163) toy_elements /\
  acc_circuits EE0 EE1 ec0 ec1 true 2 prm t 1 (toy_elements ++ repeat (0 : PF163) 2) (0 : PF163) toy_os toy_es = Some (s0, s1, path) /\
  forall dbg0 rnd0 pf0 dbg1 rnd1 pf1, good_proof EE0 dbg0 rnd0 toy_pcg pos0 s0 pf0 -> good_proof EE1 dbg1 rnd1 toy_pcg1 pos1 s1 pf1 ->
    acc_verify EE0 EE1 ec0 ec1 true 2 prm t 5 (0 : PF163) path pf0 pf1 [f163 3; f163 4] [f163 5] [f139 3; f139 4] [f139 5] = Some tt.
Proof.
  destruct (with_acc_spec _ with_acc_demo) as (prm & t & leaf & e & o & H0 & H1 & Hl & Ht & Hh & Hw & Ae & Ao & _).
  destruct (C75_unused_refuted _ _ TC0 TC1 EE0 EE1 ec0 ec1 pos0 toy_pcg toy_delta pos1 toy_pcg1 toy_delta1 prm 2 1 (toy_acc leaf) 6 None t true 1 toy_elements 5 leaf e o toy_os toy_es _
    H0 H1 eq_refl eq_refl (gens_wf_new _ _ _ _ _) cap_256 (gens_wf_new _ _ _ _ _) cap_256 Ht ltac:(rewrite Hh; vm_compute; reflexivity) ltac:(lia) ltac:(rewrite Hh; discriminate) Hl eq_refl ltac:(cbn; lia) eq_refl ltac:(apply Nat.leb_le; vm_compute; reflexivity) Hw Ae Ao) as (s0 & s1 & path & Hp & Hv).
  exists prm, t, leaf, s0, s1, path. split; [exact Ht|]. split; [exact Hl|]. split; [intros [E|[E|[E|[]]]]; discriminate E|]. split; [exact Hp|]. intros. eapply Hv; try eassumption; reflexivity.
Qed.
Example C76_demo : exists (Unlucky : PF163 -> Prop) (prm : SRParams TC0 TC1) t leaf s0 s1 path, at_most 16 Unlucky /\ from_set 6 2 1 prm (toy_acc leaf) None = TOk t /\ acc_leaf prm toy_elements = Some leaf /\ ~ In (f163 44) toy_elements /\
  acc_circuits EE0 EE1 ec0 ec1 true 2 prm t 1 toy_elements (f163 44) toy_os toy_es = Some (s0, s1, path) /\
  forall dbg0 rnd0 pf0 dbg1 rnd1 pf1, good_proof EE0 dbg0 rnd0 toy_pcg pos0 s0 pf0 -> good_proof EE1 dbg1 rnd1 toy_pcg1 pos1 s1 pf1 -> exists z, (~ Unlucky z ->
    ~ In (late_element (f163 44) toy_elements z) toy_elements /\
    acc_verify EE0 EE1 ec0 ec1 true 2 prm t 3 (late_element (f163 44) toy_elements z) path pf0 pf1 [f163 3; f163 4] [f163 5] [f139 3; f139 4] [f139 5] = Some tt).
Proof.
  destruct (with_acc_spec _ with_acc_demo) as (prm & t & leaf & e & o & H0 & H1 & Hl & Ht & Hh & Hw & Ae & Ao & _).
  assert (Hn : ~ In (f163 44) toy_elements) by (intros [E|[E|[E|[]]]]; discriminate E).
  destruct (C76_late_element_refuted _ _ TC0 TC1 EE0 EE1 ec0 ec1 pos0 toy_pcg toy_delta pos1 toy_pcg1 toy_delta1 prm 2 1 (toy_acc leaf) 6 None t true 1 toy_elements leaf (f163 44) e o toy_os toy_es
    H0 H1 eq_refl eq_refl ltac:(discriminate) (gens_wf_new _ _ _ _ _) cap_256 (gens_wf_new _ _ _ _ _) cap_256 Ht ltac:(rewrite Hh; vm_compute; reflexivity) ltac:(lia) ltac:(rewrite Hh; discriminate) Hl eq_refl ltac:(cbn; lia) Hn Hw Ae Ao) as (Unlucky & s0 & s1 & path & srv & Hfew & Hp & _ & Hv).
  exists Unlucky, prm, t, leaf, s0, s1, path. split; [exact Hfew|]. split; [exact Ht|]. split; [exact Hl|]. split; [exact Hn|]. split; [exact Hp|]. intros dbg0 rnd0 pf0 dbg1 rnd1 pf1 G0 G1.
  destruct (Hv _ _ _ _ _ _ G0 G1) as (y & z & x & _ & Hz). exists z. intros Hu. destruct (Hz Hu) as [Z1 Z2]. split; [exact Z1|]. apply Z2; reflexivity.
Qed.

(** The proofs are made and verified (tests when this file is compiled): 22 is accepted, 23
    is not; a proof made for the wrong element 44 is rejected for 44 and accepted for the
    late element; a forged proof is accepted for 99. *)
Definition acc_checks (prm : SRParams TC0 TC1) t (width : nat) (e : PF163) (path : Path TC0 TC1) pf0 pf1 : bool :=
  match acc_verify EE0 EE1 ec0 ec1 true 2 prm t width e path pf0 pf1 [f163 3; f163 4; f163 7] [f163 5; f163 6] [f139 3; f139 4] [f139 5] with Some _ => true | None => false end.
(** the verifier's challenge [z] *)
Definition acc_z (prm : SRParams TC0 TC1) t (width : nat) (e : PF163) (path : Path TC0 TC1) pf0 : PF163 :=
  match verification_commitments t path with
  | Some srv => match acc_even EE0 ec1 2 prm t width e srv (pa_selected path) with
    | Some te => match r1cs_challenges EE0 pf0 te with Some (_, _, z, _) => z | None => 0 end
    | None => 0 end
  | None => 0 end.
(* test data or vocabulary of statements, no code modelled *)
Definition C75_run_value : bool := Eval vm_compute in with_acc (fun prm t leaf e o =>
  match acc_prove EE0 EE1 ec0 ec1 true true (toy_rnd PM163) (toy_rnd PM139) 2 prm t 1 toy_elements (f163 22) toy_os toy_es with
  | Some (path, pf0, pf1) => acc_checks prm t 3 (f163 22) path pf0 pf1 && negb (acc_checks prm t 3 (f163 23) path pf0 pf1)
  | None => false end)%bool.
Example C75_run_test : C75_run_value = true.
Proof. reflexivity. Qed.
(* test data or vocabulary of statements, no code modelled *)
Definition C75_forged_value : bool := Eval vm_compute in with_acc (fun prm t leaf e o =>
  match sl_commit (even_p prm) toy_extra (f163 6) 0 with
  | Some R => match acc_forge EE0 EE1 ec0 ec1 prm e o toy_extra (f163 6) (f163 99) R toy_os toy_es with
    | Some (s0, s1, path) => match r1cs_prove EE0 true (toy_rnd PM163) toy_pcg pos0 s0, r1cs_prove EE1 true (toy_rnd PM139) toy_pcg1 pos1 s1 with
      | Some (Ok (pf0, _)), Some (Ok (pf1, _)) => acc_checks prm t 3 (f163 99) path pf0 pf1
      | _, _ => false end
    | None => false end
  | None => false end)%bool.
Example C75_forged_test : C75_forged_value = true.
Proof. reflexivity. Qed.
(* test data or vocabulary of statements, no code modelled *)
Definition C76_run_value : bool := Eval vm_compute in with_acc (fun prm t leaf e o =>
  match acc_prove EE0 EE1 ec0 ec1 true true (toy_rnd PM163) (toy_rnd PM139) 2 prm t 1 toy_elements (f163 44) toy_os toy_es with
  | Some (path, pf0, pf1) => let z := acc_z prm t 3 (f163 0) path pf0 in let late := late_element (f163 44) toy_elements z in
      negb (existsb (feqb late) toy_elements) && negb (acc_checks prm t 3 (f163 44) path pf0 pf1) && acc_checks prm t 3 late path pf0 pf1
  | None => false end)%bool.
Example C76_run_test : C76_run_value = true.
Proof. reflexivity. Qed.
(** [C76_constants_refuted] on a small circuit: the prover knows 5 and claims 5 * 3 = 16.
    The proof is accepted for the claim 5 * (3 + z) = 16, for its own challenge z, which is
    false too. *)
Definition small_gadget (c d : F101) : Prog F101 unit := PMul (lc_var (Committed 0)) (lc_const c) (fun '(_, _, o) => PConstrain (lc_sub (lc_var o) (lc_const d)) (PRet tt)).
(* test data or vocabulary of statements, no code modelled *)
Definition small_p : PState F101 := fst (the (p_new [], tt) (prun E101 (small_gadget (z101 3) (z101 16)) (fst (p_commit E101 pc101 (p_new []) (z101 5) (z101 6))))).
(* test data or vocabulary of statements, no code modelled *)
Definition small_t (c d : F101) : VState (RegV F101) := fst (the (v_new [], tt) (vrun E101 (small_gadget c d) (fst (v_commit E101 (v_new []) (fst (snd (p_commit E101 pc101 (p_new []) (z101 5) (z101 6)))))))).
(** [is_none]: helper for the test below, no code modelled. *)
Definition is_none {A} (o : option A) : bool := match o with None => true | Some _ => false end.
Lemma small_session : session E101 pc101 g101 [] small_p (small_t (z101 3) (z101 16)).
Proof.
  pose proof (ses_commit E101 pc101 g101 [] _ _ (z101 5) (z101 6) _ _ _ (ses_new E101 pc101 g101 []) (surjective_pairing _)) as H. cbn [fst snd] in H.
  destruct (prun E101 (small_gadget (z101 3) (z101 16)) (fst (p_commit E101 pc101 (p_new []) (z101 5) (z101 6)))) as [[s a]|] eqn:Hp.
  2: { apply (f_equal is_none) in Hp. vm_compute in Hp. discriminate Hp. }
  destruct (vrun E101 (small_gadget (z101 3) (z101 16)) (fst (v_commit E101 (v_new []) (fst (snd (p_commit E101 pc101 (p_new []) (z101 5) (z101 6))))))) as [[t b]|] eqn:Hv.
  2: { apply (f_equal is_none) in Hv. vm_compute in Hv. discriminate Hv. }
  unfold small_p, small_t. rewrite Hp, Hv. cbn [the fst].
  eapply (ses_gadget E101 pc101 g101 [] unit _ _ _ _ _ _ _ _ H); [|exact Hp|exact Hv]. constructor. intros [[l r] o]. repeat constructor.
Qed.
Example C76_constants_demo : match r1cs_prove E101 true rnd101 pc101 g101 small_p with
  | Some (Ok (pf, _)) => forallb (fun P => negb (veqb P v0)) (validated_points (op_degree_of 0) pf) = true /\ same_weights (p_cs small_p) (v_cs (small_t (z101 50) (z101 60))) /\
      match r1cs_challenges E101 pf (small_t (z101 3) (z101 16)) with
      | Some (_, _, z, x) => feqb z 0 = false /\ feqb x 0 = false /\ z101 5 * (z101 3 + z) <> z101 16 /\
          r1cs_verify E101 true (z101 77) pf pc101 g101 (small_t (z101 3 + z) (z101 16)) = Some (Ok tt) /\
          r1cs_verify E101 true (z101 77) pf pc101 g101 (small_t (z101 3) (z101 16)) = Some (Err VerificationError) /\
          r1cs_verify E101 true (z101 77) pf pc101 g101 (small_t (z101 4) (z101 16)) = Some (Err VerificationError)
      | None => False end
  | _ => False end.
Proof. vm_compute. repeat split; discriminate. Qed.
