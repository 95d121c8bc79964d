(** * Specification vocabulary for the R1CS argument *)
From Verif Require Export R1CS CSSpec.
Local Open Scope F_scope.

Section Spec.
  Context {F : Field} {V : VSpace F}.

  (** Party 0 has as many generators as the advertised capacity (true of every
      [BulletproofGens] built by [new] with at least one party). *)
  Definition gens_wf (g : BPGens V) : Prop :=
    exists Gr Hr, nth_error (G_vec g) 0 = Some Gr /\ nth_error (H_vec g) 0 = Some Hr /\
      length Gr = gens_capacity g /\ length Hr = gens_capacity g.

  (** The points of a proof that the verifier refuses when they are the identity. *)
  Definition validated_points (op : nat) (pf : R1CSProof V) : list V :=
    [A_I1 pf; A_O1 pf; S1 pf]
    ++ map (fun d => nth d (pT pf) v0) (filter (fun d => negb (Nat.eqb d op)) (seq 0 (length (pT pf))))
    ++ ipp_L (pipp pf) ++ ipp_R (pipp pf).

  (** The Fiat-Shamir challenges [y], [z], [x] that belong to a proof, obtained by
      replaying the transcript, and the verifier's circuit after phase two. *)
  Definition r1cs_challenges (E : TrEnv V) (pf : R1CSProof V) (t : VState V) : option (VState V * F * F * F) :=
    let t := v_pad (v_size t) t in
    let op := op_degree_of (length (v_vec t)) in
    let tr := append_u64 (v_tr t) "m" (N.of_nat (length (v_V t))) in
    let tr := append_point E (append_point E (append_point E tr "A_I1" (A_I1 pf)) "A_O1" (A_O1 pf)) "S1" (S1 pf) in
    match v_create_randomized E (v_set_tr t tr) with
    | Some (Ok t2) =>
      let tr := append_point E (append_point E (append_point E (v_tr t2) "A_I2" (A_I2 pf)) "A_O2" (A_O2 pf)) "S2" (S2 pf) in
      do (y, tr) <- challenge_scalar E tr "y";
      do (z, tr) <- challenge_scalar E tr "z";
      do tr <- append_Ts E op (seq 0 (2 * (op + 1) + 1)) (pT pf) tr;
      do (_, tr) <- challenge_scalar E tr "u";
      do (x, _) <- challenge_scalar E tr "x";
      Some (t2, y, z, x)
    | _ => None
    end.

  (** A prover state holds a witness for its constraints. *)
  Definition p_satisfied (s : PState F) : Prop := satisfies (p_asg s) (p_cs s).
  (** Two random tapes agree on the entries a one-phase prover reads, for a padded
      circuit of [n] gates with operand degree [op] (prover.rs 573-581, 999-1005). *)
  Definition same_tape (n op : nat) (a b : PRand F) : Prop :=
    r_i1 a = r_i1 b /\ r_o1 a = r_o1 b /\ r_s1 a = r_s1 b /\
    (forall i, (i < n)%nat -> r_sL1 a i = r_sL1 b i /\ r_sR1 a i = r_sR1 b i) /\
    (forall d, (d <= 2 * (op + 1))%nat -> d <> op -> r_t a d = r_t b d).

  (** The random tapes with which [s] and those with which [s'] prove the
      statement of the verifier state [t] are in one-to-one correspondence, up to
      unread entries, and corresponding tapes give the same proof and transcript.
      Tapes whose challenge [x] is zero are left out. *)
  Definition tapes_correspond (E : TrEnv V) pc g dbg (t : VState V) (s s' : PState F) : Prop :=
    let same := same_tape (p_size s) (op_degree_of (length (p_vec s))) in
    exists R : PRand F -> PRand F -> Prop,
      (forall a pf trf t2 y z x, r1cs_prove E dbg a pc g s = Some (Ok (pf, trf)) ->
         r1cs_challenges E pf t = Some (t2, y, z, x) -> x <> 0 -> exists b, R a b) /\
      (forall b pf trf t2 y z x, r1cs_prove E dbg b pc g s' = Some (Ok (pf, trf)) ->
         r1cs_challenges E pf t = Some (t2, y, z, x) -> x <> 0 -> exists a, R a b) /\
      (forall a b, R a b -> exists pf trf, r1cs_prove E dbg a pc g s = Some (Ok (pf, trf)) /\ r1cs_prove E dbg b pc g s' = Some (Ok (pf, trf))) /\
      (forall a b a' b', R a b -> R a' b' -> (same a a' <-> same b b')).
End Spec.
