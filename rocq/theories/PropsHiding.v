(** * Properties of the prover's randomness (C60, C64) *)
From Verif Require Import R1CSSpec UtilProofs CSLogic CSProofs Lockstep CSMore R1CSPoly R1CSProofs R1CSCore R1CSMain WIProofs GenProofs Toy PropsR1CS.
From Coq Require Import Lia.
Local Open Scope F_scope.

(** ** C60: every blinded point takes every value, once *)

(** Whatever the witness: for every choice of target points there are scalars
    such that, among all proofs of [s] whose masks [sL], [sR] are those of [a],
    the first-phase points hit the targets exactly when the blindings are those
    scalars. (prover.rs 574-640) *)
Theorem C60_first_phase : forall (F : Field) (V : VSpace F) (E : TrEnv V) pc g s dbg (a : PRand F) pf trf,
  (forall P : V, exists k, P = vsmul k (pcB_blinding pc)) -> pcB_blinding pc <> v0 ->
  r1cs_prove E dbg a pc g s = Some (Ok (pf, trf)) ->
  forall P_I P_O P_S : V, exists b_I b_O b_S : F,
    forall dbg' a' pf' trf', r1cs_prove E dbg' a' pc g s = Some (Ok (pf', trf')) ->
      (A_I1 pf' = P_I <-> r_i1 a' = b_I) /\ (A_O1 pf' = P_O <-> r_o1 a' = b_O) /\
      ((forall i, r_sL1 a' i = r_sL1 a i /\ r_sR1 a' i = r_sR1 a i) -> (S1 pf' = P_S <-> r_s1 a' = b_S)).
Proof.
  intros F V E pc g s dbg a pf trf Hspan HB Hp P_I P_O P_S.
  destruct (prove_run _ _ _ _ _ _ _ _ Hp) as (s2 & tr1 & tr3 & y1 & z1 & u & x1 & w & try_ & trz & trT & tru & trx & trw & fl & l & r & tp & lx & rx & Gr & Hr & [RG RH Rc1 RAI1 RAO1 RS1 _ _ _ _ _ _ _ _ _ _ _ _ _ _ _ _ _ _ _ _ _ _ _ _]).
  set (WI := commit_I pc 0 (p_aL (padded s)) (p_aR (padded s)) (firstn (p_size s) Gr) (firstn (p_size s) Hr)).
  set (WO := commit_O pc 0 (p_aO (padded s)) (firstn (p_size s) Gr)).
  set (WS := commit_I pc 0 (map (r_sL1 a) (seq 0 (p_size s))) (map (r_sR1 a) (seq 0 (p_size s))) (firstn (p_size s) Gr) (firstn (p_size s) Hr)).
  destruct (Hspan (vsub P_I WI)) as [bI HI]. destruct (Hspan (vsub P_O WO)) as [bO HO]. destruct (Hspan (vsub P_S WS)) as [bS HS].
  exists bI, bO, bS. intros dbg' a' pf' trf' Hp'.
  destruct (prove_run _ _ _ _ _ _ _ _ Hp') as (s2' & tr1' & tr3' & y1' & z1' & u' & x1' & w' & try_' & trz' & trT' & tru' & trx' & trw' & fl' & l' & r' & tp' & lx' & rx' & Gr' & Hr' & [RG' RH' Rc1' RAI1' RAO1' RS1' _ _ _ _ _ _ _ _ _ _ _ _ _ _ _ _ _ _ _ _ _ _ _ _]).
  assert (Gr' = Gr) by congruence. assert (Hr' = Hr) by congruence. subst Gr' Hr'.
  split; [|split].
  - rewrite RAI1', commit_I_blind. apply (blind_iff pc _ _ _ _ HB HI).
  - rewrite RAO1', commit_O_blind. apply (blind_iff pc _ _ _ _ HB HO).
  - intros Hsm. rewrite RS1', commit_I_blind. 
    rewrite (map_ext (r_sL1 a') (r_sL1 a) (fun i => proj1 (Hsm i))), (map_ext (r_sR1 a') (r_sR1 a) (fun i => proj2 (Hsm i))). apply (blind_iff pc _ _ _ _ HB HS).
Qed.
Print Assumptions C60_first_phase.

(** The same for the commitments to the coefficients of t(X), with everything
    but their blindings fixed (prover.rs 999-1017). *)
Definition with_t {F : Field} (a : PRand F) (rt : nat -> F) : PRand F :=
  mkRand (r_i1 a) (r_o1 a) (r_s1 a) (r_sL1 a) (r_sR1 a) (r_i2 a) (r_o2 a) (r_s2 a) (r_sL2 a) (r_sR2 a) rt.
Theorem C60_coefficients : forall (F : Field) (V : VSpace F) (E : TrEnv V) pc g tr s t dbg (a : PRand F) pf trf,
  session E pc g tr s t ->
  (forall P : V, exists k, P = vsmul k (pcB_blinding pc)) -> pcB_blinding pc <> v0 ->
  r1cs_prove E dbg a pc g s = Some (Ok (pf, trf)) ->
  let op := op_degree_of (length (p_vec s)) in
  forall d (P : V), (d <= 2 * (op + 1))%nat -> d <> op -> exists b : F,
    forall dbg' rt pf' trf', r1cs_prove E dbg' (with_t a rt) pc g s = Some (Ok (pf', trf')) ->
      (nth_error (pT pf') d = Some P <-> rt d = b).
Proof.
  intros F V E pc g tr s t dbg a pf trf Hs Hspan HB Hp op d P Hd Hne. destruct (session_agree E pc g tr s t Hs) as [Hi Ha].
  destruct (prove_run _ _ _ _ _ _ _ _ Hp) as (s2 & tr1 & tr3 & y1 & z1 & u & x1 & w & try_ & trz & trT & tru & trx & trw & fl & l & r & tp & lx & rx & Gr & Hr & R).
  destruct (Hspan (vsub P (pc_commit pc (nth d tp 0) 0))) as [b Hb]. exists b. intros dbg' rt pf' trf' Hp'.
  destruct (prove_run _ _ _ _ _ _ _ _ Hp') as (s2' & tr1' & tr3' & y1' & z1' & u' & x1' & w' & try_' & trz' & trT' & tru' & trx' & trw' & fl' & l' & r' & tp' & lx' & rx' & Gr' & Hr' & R').
  assert (tp = tp') as <-. { eapply run_same_tp; [exact R|exact R'|]. reflexivity. }
  assert (Ltp : length tp = (2 * (op + 1) + 1)%nat). { eapply run_tp_length; eassumption. }
  rewrite (rn_T _ _ _ _ _ _ _ _ _ _ _ _ _ _ _ _ _ _ _ _ _ _ _ _ _ _ _ _ _ _ R'). fold op.
  assert (HM : (length tp - 1 + 1 = 2 * (op + 1) + 1)%nat) by lia. rewrite HM.
  rewrite nth_error_map, (nth_error_nth' (seq 0 (2 * (op + 1) + 1)) 0%nat) by (rewrite seq_length; lia).
  rewrite seq_nth by lia. cbn [option_map plus]. destruct (Nat.eqb_spec d op) as [|_]; [contradiction|].
  rewrite (nth_map_seq (fun d => if Nat.eqb d op then 0 else r_t (with_t a rt) d)) by lia. destruct (Nat.eqb_spec d op) as [|_]; [contradiction|].
  cbn [with_t r_t]. rewrite pc_commit_blind. rewrite <- (blind_iff pc (rt d) b P _ HB Hb). split; [intros H; injection H; auto|intros ->; reflexivity].
Qed.
Print Assumptions C60_coefficients.

(** The product circuit of [C08_demo_session] meets the hypotheses: in the toy
    group every non-zero element spans. *)
Lemma nz101 : pcB_blinding pc101 <> v0.
Proof. apply (proj1 (feqb_false (F := F101) _ _)). vm_compute. reflexivity. Qed.
Lemma span101 : forall P : RegV F101, exists k : F101, P = vsmul k (pcB_blinding pc101).
Proof. apply regv_span, nz101. Qed.
Example C60_demo : is_some (ok_proof (r1cs_prove E101 true rnd101 pc101 g101 (ex_p 35))) = true /\
  is_some (ok_proof (r1cs_prove E101 true (with_t rnd101 (fun d => z101 (Z.of_nat d))) pc101 g101 (ex_p 35))) = true.
Proof. vm_compute. split; reflexivity. Qed.

(** ** C64: the proof does not depend on which witness was used *)

(** Two provers hold different witnesses for the same public statement: both are
    in step with the verifier state [t] (same commitments, constraints and
    transcript), in one phase. The random tapes of the first and those of the
    second are in one-to-one correspondence, up to entries the prover never
    reads, such that corresponding tapes give the same proof and the same final
    transcript, challenges being recomputed by Fiat-Shamir on both sides. Left
    out of the correspondence are only tapes for which the challenge [x] is
    zero. So with a uniformly random tape no proof is more likely under one
    witness than under the other. *)
Theorem C64_witness_indistinguishable : forall (F : Field) (V : VSpace F) (E : TrEnv V) pc g dbg tr tr' s s' t,
  session E pc g tr s t -> session E pc g tr' s' t -> p_def s = [] -> p_def s' = [] -> gens_wf g ->
  satisfies (p_asg s) (p_cs s) -> satisfies (p_asg s') (p_cs s') ->
  (forall P : V, exists k, P = vsmul k (pcB_blinding pc)) -> pcB_blinding pc <> v0 ->
  tapes_correspond E pc g dbg t s s'.
Proof.
  intros F V E pc g dbg tr tr' s s' t Hs Hs' Hd Hd' Hw Hsat Hsat' Hspan HB. unfold tapes_correspond. set (same := same_tape _ _).
  destruct (session_agree E pc g tr s t Hs) as [Hi Ha]. destruct (session_agree E pc g tr' s' t Hs') as [Hi' Ha'].
  exists (twins E pc g dbg s s'). split; [|split; [|split]].
  - intros. eapply twins_total; eassumption.
  - intros b pf trf t2 y z x Hp Hc Hx. destruct (twins_total E pc g dbg s' s t b pf trf t2 y z x) as [a Hab]; try assumption.
    exists a. apply twins_sym, Hab.
  - intros a b (pf & trf & s2 & s2' & tr1 & tr3 & y & z & u & x & w & try_ & trz & trT & tru & trx & trw & fl & l & r & tp & l' & r' & tp' & lx & rx & Gr & Hr & Hx & R & R' & P & P'). eauto.
  - intros a b a' b' H1 H2. unfold same. split; intros T.
    + exact (twins_same E pc g dbg s s' t a b a' b' Ha Hi Hd Hsat Ha' Hi' Hd' Hsat' Hw HB H1 H2 T).
    + destruct (agree_shape pc g s s' t Ha Ha') as (Sz & Snc & _). rewrite Sz, Snc in *.
      exact (twins_same E pc g dbg s' s t b a b' a' Ha' Hi' Hd' Hsat' Ha Hi Hd Hsat Hw HB (twins_sym _ _ _ _ _ _ _ _ H1) (twins_sym _ _ _ _ _ _ _ _ H2) T).
Qed.
Print Assumptions C64_witness_indistinguishable.

(** What a single proof tells: it could have come from every witness. *)
Theorem C64_same_proof : forall (F : Field) (V : VSpace F) (E : TrEnv V) pc g dbg tr tr' s s' t a pf trf t2 y z x,
  session E pc g tr s t -> session E pc g tr' s' t -> p_def s = [] -> p_def s' = [] -> gens_wf g ->
  satisfies (p_asg s) (p_cs s) -> satisfies (p_asg s') (p_cs s') ->
  (forall P : V, exists k, P = vsmul k (pcB_blinding pc)) -> pcB_blinding pc <> v0 ->
  r1cs_prove E dbg a pc g s = Some (Ok (pf, trf)) -> r1cs_challenges E pf t = Some (t2, y, z, x) -> x <> 0 ->
  exists b, r1cs_prove E dbg b pc g s' = Some (Ok (pf, trf)).
Proof.
  intros F V E pc g dbg tr tr' s s' t a pf trf t2 y z x Hs Hs' Hd Hd' Hw Hsat Hsat' Hspan HB Hp Hc Hx.
  destruct (C64_witness_indistinguishable F V E pc g dbg tr tr' s s' t Hs Hs' Hd Hd' Hw Hsat Hsat' Hspan HB) as (R & R1 & _ & R3 & _).
  destruct (R1 a pf trf t2 y z x Hp Hc Hx) as (b & Hab). destruct (R3 a b Hab) as (pf' & trf' & P1 & P2).
  exists b. rewrite Hp in P1. injection P1 as <- <-. exact P2.
Qed.
Print Assumptions C64_same_proof.

(** Vector (5, 8) and commitment 7 instead of (7, 8) and 5, with blindings that
    give the same commitments; the product is 35 in both cases. *)
Definition G0_101 : F101 := nth 0 (nth 0 (G_vec g101) []) (v0 : RegV F101).
(* test data or vocabulary of statements, no code modelled *)
Definition tw_p0 := the (p_new [], (v0, [])) (p_commit_vec E101 pc101 g101 (p_new []) [z101 5; z101 8] (z101 9 + z101 2 * G0_101 * finv (pcB_blinding pc101 : F101))).
(* test data or vocabulary of statements, no code modelled *)
Definition tw_p1 := p_commit E101 pc101 (fst tw_p0) (z101 7) (z101 86).
(* test data or vocabulary of statements, no code modelled *)
Definition tw_p := fst (the (p_new [], tt) (prun E101 (prod_gadget 35) (fst tw_p1))).
Lemma tw_session : session E101 pc101 g101 [] tw_p (ex_t 35).
Proof.
  assert (Hc0 : fst (snd tw_p0) = fst (snd ex_p0)) by (apply (proj1 (feqb_true (F := F101) _ _)); vm_compute; reflexivity).
  assert (Hc1 : fst (snd tw_p1) = fst (snd ex_p1)) by (apply (proj1 (feqb_true (F := F101) _ _)); vm_compute; reflexivity).
  unfold ex_t. rewrite <- Hc0, <- Hc1.
  apply (ex_session_gen _ _ E101 pc101 g101 [z101 5; z101 8] (z101 9 + z101 2 * G0_101 * finv (pcB_blinding pc101 : F101)) (z101 7) (z101 86) (prod_gadget 35) tw_p0 tw_p1).
  - apply the_some. vm_compute. reflexivity.
  - reflexivity.
  - apply prod_same.
  - apply the_some. vm_compute. reflexivity.
  - apply the_some. vm_compute. reflexivity.
Qed.
Lemma sat_of (s : PState F101) t : session E101 pc101 g101 [] s t ->
  forallb (fun lc => feqb (lc_val (p_asg s) lc) 0) (p_cs s) = true -> satisfies (p_asg s) (p_cs s).
Proof.
  intros Hs H. destruct (session_agree _ _ _ _ _ _ Hs) as [Hi _]. split; [reflexivity|]. split; [apply p_asg_gates, Hi|].
  rewrite Forall_forall. rewrite forallb_forall in H. intros lc Hin. apply (feqb_true (F := F101)), H, Hin.
Qed.
Example C64_demo : session E101 pc101 g101 [] (ex_p 35) (ex_t 35) /\ session E101 pc101 g101 [] tw_p (ex_t 35) /\
  satisfies (p_asg (ex_p 35)) (p_cs (ex_p 35)) /\ satisfies (p_asg tw_p) (p_cs tw_p) /\
  p_asg (ex_p 35) (Committed 0) <> p_asg tw_p (Committed 0).
Proof.
  split; [exact ex_session_35|]. split; [exact tw_session|]. split; [apply (sat_of _ _ ex_session_35); vm_compute; reflexivity|].
  split; [apply (sat_of _ _ tw_session); vm_compute; reflexivity|]. apply (proj1 (feqb_false (F := F101) _ _)). vm_compute. reflexivity.
Qed.
(** The challenge of the concrete proof is not zero, so some tape of the second
    prover gives exactly this proof. *)
Example C64_demo_x :
  match r1cs_prove E101 true rnd101 pc101 g101 (ex_p 35) with
  | Some (Ok (pf, _)) => match r1cs_challenges E101 pf (ex_t 35) with Some (_, _, _, x) => negb (is_zero101 x) | None => false end
  | _ => false
  end = true.
Proof. vm_compute. reflexivity. Qed.
