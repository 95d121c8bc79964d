(** * C71: gates can be violated with a vector commitment that uses the generators [H] *)
From Verif Require Export ForgeVec.
From Verif Require Import SoundSpec ForgeVecProofs UtilProofs CSProofs Lockstep CSMore R1CS R1CSSpec R1CSProofs Toy PropsSound.
Local Open Scope F_scope.

(** The vector commitments [k] and [k'] of [m] are complementary: their degrees in the
    polynomials [l] and [r] add up to that of the gate equations.  No code modelled. *)
Definition complementary (m k k' : nat) : Prop :=
  (Nat.even m = true /\ k + k' + 1 = m)%nat \/ (Nat.odd m = true /\ k + k' + 2 = m)%nat.

Lemma complementary_slots m k k' : complementary m k k' ->
  (k < m /\ k' < m /\ 1 <= slot (op_degree_of m) k /\ slot (op_degree_of m) k + slot (op_degree_of m) k' = op_degree_of m)%nat.
Proof.
  intros [[Hm Hk]|[Hm Hk]].
  - destruct (slot_even m k Hm ltac:(lia)) as [H1 H2]. replace (m - 1 - k)%nat with k' in H2 by lia. lia.
  - destruct (slot_odd m k Hm ltac:(lia)) as [H1 H2]. replace (m - 2 - k)%nat with k' in H2 by lia. lia.
Qed.

Section Ring.
  Context {F : Field}.
  Add Field FFpfv : (f_th F).
  Lemma gate_zero (a b c d : F) : a * b - (a * b + c * d) + c * d = 0.
  Proof. ring. Qed.
End Ring.

(** A prover who puts the coefficients [h] on the generators [H] into the [k]-th vector
    commitment has every assignment accepted that satisfies the linear constraints and
    the gate equations up to the products of [h] with the entries of the complementary
    vector commitment.  All other commitments are honest; the circuit, the number (two
    or more) of vector commitments and the generators are arbitrary. *)
Theorem C71_gates_forgeable : forall (F : Field) (V : VSpace F) (E : TrEnv V) pc g tr k k' h s t,
  cheat E pc g tr k h s t -> v_def t = [] -> gens_wf g -> (gens_capacity g < 2 ^ 32)%nat ->
  complementary (length (p_vec s)) k k' -> (length h <= p_size s)%nat ->
  Forall (fun lc => lc_val (p_asg s) lc = 0) (p_cs s) ->
  (forall i, p_asg s (MulO i) = p_asg s (MulL i) * p_asg s (MulR i) + p_asg s (VectorCommit k' i) * nth i h 0) ->
  forall rnd pf, forge_vec E rnd pc g s k h = Some pf ->
    Forall (fun P => P <> v0) (validated_points (op_degree_of (length (p_vec s))) pf) ->
    forall dbg rr, r1cs_verify E dbg rr pf pc g t = Some (Ok tt).
Proof.
  intros F V E pc g tr k k' h s t Hch Hd Hw Hc Hcomp Hh Hlin Hgate rnd pf Hf Hnz dbg rr.
  destruct (cheat_agree E pc g tr k h s t Hch) as ([HR HO] & Hk & t0 & Ha & ->). destruct (complementary_slots _ _ _ Hcomp) as (_ & Hk' & S1 & S2).
  eapply (forge_vec_accepts E pc g dbg rr rnd s t0 k k'); try eassumption. intros i Hi. specialize (Hgate i). unfold p_asg in Hgate. cbn [p_var] in Hgate.
  assert (Hn : forall (l : list F), match nth_error l i with Some x => x | None => 0 end = nth i l 0).
  { intros l. destruct (nth_error l i) eqn:En; [symmetry; apply nth_error_nth; exact En|]. symmetry. apply nth_overflow. apply nth_error_None. exact En. }
  rewrite !Hn in Hgate.
  destruct (nth_error (p_vec s) k') as [[b l]|] eqn:En; [|apply nth_error_None in En; lia]. rewrite Hn in Hgate.
  rewrite (nth_map_in snd _ _ (0, [])) by exact Hk'. rewrite (nth_error_nth _ _ _ En). cbn [snd]. rewrite Hgate. apply gate_zero.
Qed.
Print Assumptions C71_gates_forgeable.

(** ** Concrete instances

    The circuit [unsat] of PropsSound.v: one gate [a * b = c], constraints [a = 0] and
    [c = 1].  Two vectors (7, 8) and (3, 4) are committed to; the first commitment has
    the coefficient 1/3 on the generator [H_0]. *)
(* test data, no code modelled *)
Definition uh_h : list F101 := [finv (z101 3)].
(* test data or vocabulary of statements, no code modelled *)
Definition uh_c := commit_vec_H E6 pc6 g6 (p_new []) [z101 7; z101 8] (z101 9) uh_h.
(* test data or vocabulary of statements, no code modelled *)
Definition uh_c2 := p_commit_vec E6 pc6 g6 (fst (the un_d uh_c)) [z101 3; z101 4] (z101 10).
(* test data or vocabulary of statements, no code modelled *)
Definition uh_p := prun E6 unsat (fst (the un_d uh_c2)).
(* test data or vocabulary of statements, no code modelled *)
Definition uh_v := vrun E6 unsat (fst (v_commit_vec E6 (fst (v_commit_vec E6 (v_new []) 2 (fst (snd (the un_d uh_c))))) 2 (fst (snd (the un_d uh_c2))))).
(* test data or vocabulary of statements, no code modelled *)
Definition uh_s : PState F101 := p_set_wires (fst (the (p_new [], tt) uh_p)) [z101 0] [z101 0] [z101 1].
(* test data or vocabulary of statements, no code modelled *)
Definition uh_t : VState W6 := fst (the (v_new [], tt) uh_v).
Notation uh_forged := (forge_vec E6 rnd6 pc6 g6 uh_s 0 uh_h).
Lemma uh_cheat : cheat E6 pc6 g6 [] 0 uh_h uh_s uh_t.
Proof.
  assert (H1 : is_some uh_c = true) by (vm_compute; reflexivity). assert (H1' : is_some uh_c2 = true) by (vm_compute; reflexivity).
  assert (H2 : is_some uh_p = true) by (vm_compute; reflexivity). assert (H3 : is_some uh_v = true) by (vm_compute; reflexivity).
  apply (the_some un_d) in H1, H1'. apply (the_some (p_new [], tt)) in H2. apply (the_some (v_new [], tt)) in H3.
  assert (HL : length (p_aL (fst (the (p_new [], tt) uh_p))) = 1%nat) by (vm_compute; reflexivity).
  destruct (the un_d uh_c) as [s0 [c us]] eqn:E0. destruct (the un_d uh_c2) as [s1 [c1 us1]] eqn:E1. destruct (the (p_new [], tt) uh_p) as [s2 x2] eqn:E2. destruct (the (v_new [], tt) uh_v) as [t2 y2] eqn:E3.
  unfold uh_s, uh_t. rewrite E2, E3. cbn [fst] in HL |- *.
  apply ch_wires; [|symmetry; exact HL|reflexivity|reflexivity].
  eapply (ch_gadget E6 pc6 g6 [] 0 uh_h unit unsat unsat).
  - eapply (ch_commit_vec E6 pc6 g6 [] 0 uh_h _ _ [z101 3; z101 4]); [|unfold uh_c2 in H1'; rewrite E0 in H1'; exact H1'].
    eapply (ch_commit_H E6 pc6 g6 [] 0 uh_h _ _ [z101 7; z101 8]); [apply ses_new|reflexivity|exact H1].
  - constructor. intros [[l r] o]. repeat constructor.
  - unfold uh_p in H2. rewrite E1 in H2. exact H2.
  - unfold uh_v in H3. rewrite E0, E1 in H3. exact H3.
Qed.
Lemma uh_shape : v_cs uh_t = [lc_var (MulL 0); lc_var (MulO 0) ++ [(One, - (z101 1))]] /\ p_cs uh_s = v_cs uh_t /\ v_def uh_t = [] /\
  p_vec uh_s = [(z101 9, [z101 7; z101 8]); (z101 10, [z101 3; z101 4])] /\ p_aL uh_s = [z101 0] /\ p_aR uh_s = [z101 0] /\ p_aO uh_s = [z101 1].
Proof. repeat split; reflexivity. Qed.
Lemma uh_unsat (w : Var -> F101) : ~ satisfies w (v_cs uh_t).
Proof. destruct uh_shape as (-> & _). rewrite <- (proj1 un_shape). apply un_unsat. Qed.
Lemma uh_lin (s : PState F101) : p_cs s = [lc_var (MulL 0); lc_var (MulO 0) ++ [(One, - (z101 1))]] -> p_aL s = [z101 0] -> p_aO s = [z101 1] ->
  Forall (fun lc => lc_val (p_asg s) lc = 0) (p_cs s).
Proof. intros -> HL HO. unfold p_asg. repeat constructor; cbn [lc_val lc_var app p_var]; rewrite ?HL, ?HO; apply feqb_true; vm_compute; reflexivity. Qed.
Lemma uh_gates (s : PState F101) : p_vec s = [(z101 9, [z101 7; z101 8]); (z101 10, [z101 3; z101 4])] -> p_aL s = [z101 0] -> p_aR s = [z101 0] -> p_aO s = [z101 1] ->
  forall i, p_asg s (MulO i) = p_asg s (MulL i) * p_asg s (MulR i) + p_asg s (VectorCommit 1 i) * nth i uh_h 0.
Proof.
  intros Hv HL HR HO i. unfold p_asg. cbn [p_var]. rewrite Hv, HL, HR, HO. cbn [nth_error]. unfold uh_h.
  destruct i as [|[|[|i]]]; apply feqb_true; [vm_compute; reflexivity|vm_compute; reflexivity|vm_compute; reflexivity|]. cbn [nth_error nth]. destruct i; vm_compute; reflexivity.
Qed.
(** the hypotheses of [C71_gates_forgeable] hold and the proof is accepted *)
Lemma uh_accepted : exists pf, uh_forged = Some pf /\ forall dbg rr, r1cs_verify E6 dbg rr pf pc6 g6 uh_t = Some (Ok tt).
Proof.
  assert (H : match uh_forged with Some pf => forallb (fun P => negb (veqb P v0)) (validated_points (op_degree_of 2) pf) | None => false end = true) by (vm_compute; reflexivity).
  destruct uh_forged as [pf|] eqn:Ef; [|discriminate H]. exists pf. split; [reflexivity|].
  destruct uh_shape as (S1 & S2 & S3 & S4 & S5 & S6 & S7). pose proof (C71_gates_forgeable _ _ E6 pc6 g6 [] 0 1 uh_h uh_s uh_t uh_cheat S3) as Q.
  rewrite S4 in Q. apply Q with (rnd := rnd6); [| | | | | |exact Ef|].
  - apply gens_wf6.
  - change (gens_capacity g6) with 2%nat. apply (Nat.lt_le_trans _ (2 ^ 2)); [cbn; lia|apply Nat.pow_le_mono_r; lia].
  - left. split; reflexivity.
  - unfold p_size. rewrite S4. cbn. lia.
  - apply uh_lin; [rewrite S2; exact S1|exact S5|exact S7].
  - apply uh_gates; assumption.
  - apply Forall_forall. intros P HP. rewrite forallb_forall in H. specialize (H P HP). apply Bool.negb_true_iff in H. intros ->. rewrite veqb_refl in H. discriminate H.
Qed.

(** With independent generators and an even number of vector commitments, the verifier
    accepts a proof for a circuit that no assignment satisfies. *)
Theorem C71_sound_even_refuted : exists (F : Field) (V : VSpace F) (E : TrEnv V) pc g (circuit : Prog F unit) c0 c1 t Gs Hs pf,
  vrun E circuit (fst (v_commit_vec E (fst (v_commit_vec E (v_new []) 2 c0)) 2 c1)) = Some (t, tt) /\
  gens_wf g /\ share_G g 0 2 = Some Gs /\ share_H g 0 2 = Some Hs /\
  (forall c : FreeV F 6, free_eval (generators pc Gs Hs) c = v0 -> c = v0) /\
  (forall w, ~ satisfies w (v_cs t)) /\ v_def t = [] /\
  forall dbg rr, r1cs_verify E dbg rr pf pc g t = Some (Ok tt).
Proof.
  destruct uh_accepted as (pf & _ & Hv). exists F101, W6, E6, pc6, g6, unsat, (fst (snd (the un_d uh_c))), (fst (snd (the un_d uh_c2))), uh_t, [unit6 2; unit6 3], [unit6 4; unit6 5], pf.
  split. { assert (H3 : is_some uh_v = true) by (vm_compute; reflexivity). apply (the_some (v_new [], tt)) in H3. unfold uh_t. fold uh_v. destruct (the (v_new [], tt) uh_v) as [t2 []] eqn:E3. exact H3. }
  split; [apply gens_wf6|]. split; [reflexivity|]. split; [reflexivity|].
  split; [intros c Hc; rewrite <- (gens6_id c); exact Hc|]. split; [exact uh_unsat|]. split; [apply uh_shape|exact Hv].
Qed.
Print Assumptions C71_sound_even_refuted.
