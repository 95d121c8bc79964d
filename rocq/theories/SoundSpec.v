(** * Specification vocabulary for the soundness of the R1CS verifier

    Everything here is specification vocabulary: no code is modelled. *)
From Verif Require Export R1CSSpec.
From Coq Require Import Eqdep_dec.
Local Open Scope F_scope.

(** At most [k] field elements have the property. *)
Definition at_most {A : Type} (k : nat) (Bad : A -> Prop) : Prop :=
  forall l, NoDup l -> Forall Bad l -> (length l <= k)%nat.

(** ** Points given by their coefficients

    An element of [FreeV F m] is a list of [m] coefficients.  A prover that is
    restricted to group operations knows, for every point it outputs, the
    coefficients of that point over the [m] generators: its outputs are elements of
    [FreeV F m], and [free_eval gens] gives the points the verifier sees. *)
Section Free.
  Variable F : Field.
  Add Field FFfree : (f_th F).
  Variable m : nat.

  (* vocabulary of specifications and proofs, no code modelled *)
  Definition free_car : Type := { l : list F | Nat.eqb (length l) m = true }.
  Lemma free_ext (a b : free_car) : proj1_sig a = proj1_sig b -> a = b.
  Proof.
    destruct a as [a Ha], b as [b Hb]. cbn. intros ->. f_equal. apply UIP_dec. apply Bool.bool_dec.
  Qed.
  Lemma free_length (a : free_car) : length (proj1_sig a) = m.
  Proof. destruct a as [a Ha]. cbn. apply Nat.eqb_eq. exact Ha. Qed.

  (** the element with the given coefficients *)
  Definition free_mk (f : nat -> F) : free_car.
  Proof.
    exists (map f (seq 0 m)). rewrite map_length, seq_length. apply Nat.eqb_refl.
  Defined.
  (** the [k]-th coefficient *)
  Definition coord (k : nat) (a : free_car) : F := nth k (proj1_sig a) 0.

  Lemma coord_mk f k : (k < m)%nat -> coord k (free_mk f) = f k.
  Proof. intros Hk. unfold coord, free_mk. cbn [proj1_sig]. apply nth_map_seq. exact Hk. Qed.
  Lemma coord_ext (a b : free_car) : (forall k, (k < m)%nat -> coord k a = coord k b) -> a = b.
  Proof.
    intros H. apply free_ext. apply (list_ext_nth _ _ 0); [rewrite !free_length; reflexivity|].
    intros k Hk. rewrite free_length in Hk. apply H. exact Hk.
  Qed.

  (* vocabulary of specifications and proofs, no code modelled *)
  Definition free_eqb (a b : free_car) : bool := forallb (fun k => feqb (coord k a) (coord k b)) (seq 0 m).
  Lemma free_eqb_spec a b : reflect (a = b) (free_eqb a b).
  Proof.
    apply iff_reflect. unfold free_eqb. rewrite forallb_forall. split.
    - intros -> k _. apply feqb_refl.
    - intros H. apply coord_ext. intros k Hk. apply feqb_true. apply H. apply in_seq. lia.
  Qed.

  (* vocabulary of specifications and proofs, no code modelled *)
  Definition FreeV : VSpace F.
  Proof.
    refine (mkVSpace F free_car (free_mk (fun _ => 0)) (fun a b => free_mk (fun k => coord k a + coord k b))
      (fun a => free_mk (fun k => - coord k a)) (fun c a => free_mk (fun k => c * coord k a)) free_eqb free_eqb_spec _ _ _ _ _ _ _ _);
    intros; apply coord_ext; intros k Hk; rewrite ?coord_mk by exact Hk; ring.
  Defined.
End Free.
Arguments free_mk {F m} _.
Arguments coord {F m} _ _.

Section Game.
  Context {F : Field} {V : VSpace F}.

  (** The point with the given coefficients. *)
  Definition free_eval {m : nat} (gens : list V) (a : FreeV F m) : V := msm (proj1_sig a) gens.

  (** The generators in the order of the verifier's last check: [B], [B~], [G], [H]. *)
  Definition generators (pc : PedersenGens V) (Gs Hs : list V) : list V := [pcB pc; pcB_blinding pc] ++ Gs ++ Hs.

  (** Replacing the points of a proof, and those of a verifier state. *)
  Definition map_proof {W : VSpace F} (f : W -> V) (pf : R1CSProof W) : R1CSProof V :=
    mkProof (f (A_I1 pf)) (f (A_O1 pf)) (f (S1 pf)) (f (A_I2 pf)) (f (A_O2 pf)) (f (S2 pf)) (map f (pT pf))
      (pt_x pf) (pt_x_blinding pf) (pe_blinding pf)
      (mkIPP (map f (ipp_L (pipp pf))) (map f (ipp_R (pipp pf))) (ipp_a (pipp pf)) (ipp_b (pipp pf))).
  (* vocabulary of specifications and proofs, no code modelled *)
  Definition map_vstate {W : VSpace F} (f : W -> V) (t : VState W) : VState V :=
    mkV (v_tr t) (v_cs t) (map (fun cd => (f (fst cd), snd cd)) (v_vec t)) (v_num t) (map f (v_V t)) (v_def t) (v_pend t).

  (** The points of a statement and a proof in the order of the verifier's last check. *)
  Definition all_points (t : VState V) (pf : R1CSProof V) : list V :=
    let op := op_degree_of (length (v_vec t)) in
    map fst (v_vec t) ++ [A_I1 pf; A_O1 pf; S1 pf; A_I2 pf; A_O2 pf; S2 pf] ++ v_V t
    ++ map (fun d => nth d (pT pf) v0) (filter (fun d => negb (Nat.eqb d op)) (seq 0 (2 * (op + 1) + 1)))
    ++ ipp_L (pipp pf) ++ ipp_R (pipp pf).

  (** The rounds of the inner-product argument, with the challenge of each round
      outside the set that [bad] gives for the rounds before and the two points. *)
  Fixpoint avoids (bad : list (V * V * F) -> V -> V -> F -> Prop) (h : list (V * V * F)) (Ls Rs : list V) (us : list F) : Prop :=
    match Ls, Rs, us with
    | L :: Ls, R :: Rs, u :: us => ~ bad h L R u /\ avoids bad (h ++ [(L, R, u)]) Ls Rs us
    | _, _, _ => True
    end.

  (** All challenges that belong to a proof, obtained by replaying the transcript:
      the verifier's circuit after phase two, [y], [z], [u], [x], [w] and the
      challenges of the inner-product argument. *)
  Definition all_challenges (E : TrEnv V) (pf : R1CSProof V) (t : VState V)
    : option (VState V * (F * F * F * F * F) * list F) :=
    let t := v_pad (v_size t) t in
    let op := op_degree_of (length (v_vec t)) in
    let tr := append_u64 (v_tr t) "m" (N.of_nat (length (v_V t))) in
    let tr := append_point E (append_point E (append_point E tr "A_I1" (A_I1 pf)) "A_O1" (A_O1 pf)) "S1" (S1 pf) in
    match v_create_randomized E (v_set_tr t tr) with
    | Some (Ok t2) =>
      let tr := append_point E (append_point E (append_point E (v_tr t2) "A_I2" (A_I2 pf)) "A_O2" (A_O2 pf)) "S2" (S2 pf) in
      do (y, tr) <- challenge_scalar E tr "y";
      do (z, tr) <- challenge_scalar E tr "z";
      do tr <- append_Ts E op (seq 0 (2 * (op + 1) + 1)) (pT pf) tr;
      do (u, tr) <- challenge_scalar E tr "u";
      do (x, tr) <- challenge_scalar E tr "x";
      do (w, tr) <- challenge_scalar E (append_scalar E (append_scalar E (append_scalar E tr "t_x" (pt_x pf)) "t_x_blinding" (pt_x_blinding pf)) "e_blinding" (pe_blinding pf)) "w";
      match ipp_challenges E (innerproduct_domain_sep tr (N.of_nat (next_power_of_two (v_size t2)))) (ipp_L (pipp pf)) (ipp_R (pipp pf)) with
      | Some (Ok (us, _)) => Some (t2, (y, z, u, x, w), us)
      | _ => None
      end
    | _ => None
    end.
End Game.

(** ** What an algebraic prover has committed to

    [W] is [FreeV F (2 + 2 N)]: coordinate 0 belongs to [B], 1 to [B~], [2 + i] to
    [G_i] and [2 + N + i] to [H_i]. *)
Section Extract.
  Context {F : Field}.
  Variable N : nat.
  Local Notation W := (FreeV F (2 + (N + N))).

  (* vocabulary of specifications and proofs, no code modelled *)
  Definition on_B (a : W) : F := coord 0 a.
  (* vocabulary of specifications and proofs, no code modelled *)
  Definition on_G (i : nat) (a : W) : F := if (i <? N)%nat then coord (2 + i) a else 0.
  (* vocabulary of specifications and proofs, no code modelled *)
  Definition on_H (i : nat) (a : W) : F := if (i <? N)%nat then coord (2 + (N + i)) a else 0.

  (** The coefficients of the multi-exponentiation of the verifier: [scalars] belong
      to the prover's [points], [fixed] to the generators. *)
  Definition combined (scalars : list F) (points : list W) (fixed : list F) : W :=
    vadd (msm scalars points) (free_mk (fun k => nth k fixed 0)).

  (** The assignment read off the prover's points: the wires of the [n1] gates of
      phase one from the first commitments, those of phase two from the second ones;
      committed values from the commitments. *)
  Definition extracted (n1 : nat) (t : VState W) (AI1 AO1 AI2 AO2 : W) (v : Var) : F :=
    match v with
    | MulL i => on_G i (if (i <? n1)%nat then AI1 else AI2)
    | MulR i => on_H i (if (i <? n1)%nat then AI1 else AI2)
    | MulO i => on_G i (if (i <? n1)%nat then AO1 else AO2)
    | Committed k => on_B (nth k (v_V t) v0)
    | VectorCommit j i => on_G i (fst (nth j (v_vec t) (v0, 0%nat)))
    | One => 1
    end.

  (** The degree in [x] at which the [j]-th vector commitment enters. *)
  Definition slot (op j : nat) : nat := fst (nth j (skipn 2 (op_splits op)) (0, 0)%nat).

  (** The term by which gate [i] may be violated: products of coefficients of
      points whose degrees add up to that of the gate equations. *)
  Definition gate_defect (n1 : nat) (t : VState W) (AO1 : W) (i : nat) : F :=
    let m := length (v_vec t) in
    let op := op_degree_of m in
    let C j := fst (nth j (v_vec t) (v0, 0%nat)) in
    if (i <? n1)%nat then
      fsum m (fun j => if Nat.eqb (slot op j) 0 then on_G i (C j) * on_H i AO1 + on_G i AO1 * on_H i (C j) else 0)
      + fsum m (fun j => fsum m (fun k => if Nat.eqb (slot op j + slot op k) op then on_G i (C j) * on_H i (C k) else 0))
    else 0.

  (** The verifier's challenges against a prover's moves, in the order of the
      transcript.  Each challenge has to avoid a set of few values that was fixed by
      everything sent before it: the circuit and the first six points, then after
      [z] the list [T], after [x] the three scalars of the proof, then the rounds of
      the inner-product argument and its last two scalars.  The last value [rr] is
      the verifier's own random scalar.  [Claim] then holds for everything that
      happened. *)
  Definition unless_unlucky (t2 : VState W)
      (Claim : F -> F -> list W -> F -> F -> F -> F -> F -> F -> list W -> list W -> list F -> F -> F -> F -> Prop) : Prop :=
    let op := op_degree_of (length (v_vec t2)) in
    exists badY : F -> Prop, at_most (N - 1) badY /\ forall y, ~ badY y ->
    exists badZ : F -> Prop, at_most (length (v_cs t2)) badZ /\ forall z T, ~ badZ z ->
    exists badU : F -> Prop, at_most 5 badU /\ forall u, ~ badU u ->
    exists badX : F -> Prop, at_most (2 * (op + 1)) badX /\ forall x t_x t_xb e_b, ~ badX x ->
    exists badW : F -> Prop, at_most 2 badW /\ forall w, ~ badW w ->
    exists badI : list (W * W * F) -> W -> W -> F -> Prop, (forall h L R, at_most 7 (badI h L R)) /\
    forall Ls Rs us a b, avoids badI [] Ls Rs us ->
    exists badR : F -> Prop, at_most 1 badR /\ forall rr, ~ badR rr ->
    Claim y z T u x t_x t_xb e_b w Ls Rs us a b rr.
End Extract.
