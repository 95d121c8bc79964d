(** * The users of vector commitments in the tests

    bulletproofs/tests/r1cs_vec.rs: seven small circuits over committed vectors, from the
    values to the proof and from the commitments to the decision of the verifier.  A panic is
    [None].  The numbers of generators (128, 256, 20 in the code) are an argument; values are
    field elements, the code converts them from [u64]. *)
From Verif Require Export Clients.
Local Open Scope F_scope.

Section VecClients.
  Context {F : Field} {V : VSpace F}.
  Variable E : TrEnv V.

  (** [Transcript::new(b"R1CSExampleGadget")] in all provers and verifiers of the file:
      r1cs_vec.rs 25, 53, 107, 151 and so on *)
  Definition vec_transcript : Transcript := test_transcript "R1CSExampleGadget".

  (** r1cs_vec.rs 101-139, 211-265, 356-410, 494-527, 685-713: the provers with one vector
      commitment.  They commit to scalars ([scalars]: values with blindings), then to the
      vector [v] with blinding [h], run the circuit and prove. *)
  Definition vec_prove (dbg : bool) (rnd : PRand F) (pc : PedersenGens V) (g : BPGens V) (scalars : list (F * F)) (v : list F) (h : F)
      (circuit : list Var -> list Var -> Prog F unit) : option (Res (R1CSProof V * list V * V)) :=
    let '(s, (coms, ds)) := p_commits E pc (p_new vec_transcript) scalars in
    do (s, (com, vars)) <- p_commit_vec E pc g s v h;
    do (s, _) <- prun E (circuit ds vars) s;
    dor r <- r1cs_prove E dbg rnd pc g s; Some (Ok (fst r, coms, com)).
  (** r1cs_vec.rs 151-169, 276-298, 421-443, 536-548, 722-736: the circuits of the verifiers *)
  Definition vec_statement (coms : list V) (dim : nat) (com : V) (circuit : list Var -> list Var -> Prog F unit) : option (VState V) :=
    let '(t, ds) := v_commits E (v_new vec_transcript) coms in
    let '(t, vars) := v_commit_vec E t dim com in
    do (t, _) <- vrun E (circuit ds vars) t; Some t.
  (** r1cs_vec.rs 142-175, 268-304, 413-449, 530-554, 716-742: every error becomes
      [VerificationError] *)
  Definition vec_verify (dbg : bool) (rr : F) (pf : R1CSProof V) (pc : PedersenGens V) (g : BPGens V) (coms : list V) (dim : nat) (com : V)
      (circuit : list Var -> list Var -> Prog F unit) : option (Res unit) :=
    do t <- vec_statement coms dim com circuit;
    do r <- r1cs_verify E dbg rr pf pc g t;
    Some (match r with Ok _ => Ok tt | Err _ => Err VerificationError end).

  (** r1cs_vec.rs 86-98 (no vector entries) and 197-208 (five unused ones): [d1 = d2] *)
  Definition equal_circuit (ds vs : list Var) : Prog F unit :=
    match ds with
    | [d1; d2] => PConstrain (lc_sub (lc_var d1) (lc_var d2)) (PRet tt)
    | _ => PPanic
    end.
  (** r1cs_vec.rs 338-353 *)
  Definition linear_circuit (ds vs : list Var) : Prog F unit :=
    match ds, map lc_var vs with
    | [d1; d2], [a1; a2; a3; a4; a5] =>
      PConstrain (lc_sub a1 a2)
      (PConstrain (lc_sub a2 a3)
      (PConstrain (lc_sub a4 (lc_add (lc_add a1 a2) a3))
      (PConstrain (lc_sub (lc_var d1) (lc_add (lc_add (lc_add (lc_add a1 a2) a3) a4) a5))
      (PConstrain (lc_sub (lc_var d1) (lc_var d2)) (PRet tt)))))
    | _, _ => PPanic
    end.
  (** r1cs_vec.rs 488-490: the loop; [b], [a]: the entries [i - 1] and [i - 2] *)
  Fixpoint fib_loop (a b : Var) (xs : list Var) : Prog F unit :=
    match xs with
    | [] => PRet tt
    | x :: r => PConstrain (lc_sub (lc_var x) (lc_add (lc_var b) (lc_var a))) (fib_loop b x r)
    end.
  (** r1cs_vec.rs 485-491; with fewer than two entries an index is out of range *)
  Definition fib_circuit (ds vs : list Var) : Prog F unit :=
    match vs with
    | a :: b :: r => PConstrain (lc_sub (lc_var a) (lc_const 1)) (PConstrain (lc_sub (lc_var b) (lc_const 1)) (fib_loop a b r))
    | _ => PPanic
    end.
  (** r1cs_vec.rs 509-511: the loop; [b], [a]: the entries [i - 1] and [i - 2] *)
  Fixpoint fib_from (a b : F) (n : nat) : list F :=
    match n with
    | O => []
    | S n => (b + a) :: fib_from b (b + a) n
    end.
  (** r1cs_vec.rs 505-511: the vector of the prover, for [DIM = n + 2] *)
  Definition fib_vector (n : nat) : list F := 1 :: 1 :: fib_from 1 1 n.
  (** r1cs_vec.rs 674-682 *)
  Definition mul_circuit (ds vs : list Var) : Prog F unit :=
    match vs with
    | a :: b :: ab :: _ => PMul (lc_var a) (lc_var b) (fun '(_, _, vab) => PConstrain (lc_sub (lc_var vab) (lc_var ab)) (PRet tt))
    | _ => PPanic
    end.

  (** r1cs_vec.rs 21-43: two empty vectors, no circuit *)
  Definition twice_prove (dbg : bool) (rnd : PRand F) (pc : PedersenGens V) (g : BPGens V) (h1 h2 : F) : option (Res (R1CSProof V * V * V)) :=
    do (s, (c1, _)) <- p_commit_vec E pc g (p_new vec_transcript) [] h1;
    do (s, (c2, _)) <- p_commit_vec E pc g s [] h2;
    dor r <- r1cs_prove E dbg rnd pc g s; Some (Ok (fst r, c1, c2)).
  (** r1cs_vec.rs 46-64 *)
  Definition twice_verify (dbg : bool) (rr : F) (pf : R1CSProof V) (pc : PedersenGens V) (g : BPGens V) (c1 c2 : V) : option (Res unit) :=
    let t := fst (v_commit_vec E (fst (v_commit_vec E (v_new vec_transcript) 0 c1)) 0 c2) in
    do r <- r1cs_verify E dbg rr pf pc g t;
    Some (match r with Ok _ => Ok tt | Err _ => Err VerificationError end).

  (** r1cs_vec.rs 597-610, 633-637: a multiplier that nothing refers to; [unwrap] panics on
      an error *)
  Definition free_multiplier (ab : option (F * F)) : Prog F unit :=
    PAllocMul ab (fun r => match r with Ok _ => PRet tt | Err _ => PPanic end).
  (** r1cs_vec.rs 587-620: the multiplier comes before the (empty) vector *)
  Definition separate_prove (dbg : bool) (rnd : PRand F) (pc : PedersenGens V) (g : BPGens V) (a b h : F) : option (Res (R1CSProof V * V)) :=
    do (s, _) <- prun E (free_multiplier (Some (a, b))) (p_new vec_transcript);
    do (s, (com, _)) <- p_commit_vec E pc g s [] h;
    dor r <- r1cs_prove E dbg rnd pc g s; Some (Ok (fst r, com)).
  (** r1cs_vec.rs 623-648 *)
  Definition separate_verify (dbg : bool) (rr : F) (pf : R1CSProof V) (pc : PedersenGens V) (g : BPGens V) (com : V) : option (Res unit) :=
    do (t, _) <- vrun E (free_multiplier None) (v_new vec_transcript);
    do r <- r1cs_verify E dbg rr pf pc g (fst (v_commit_vec E t 0 com));
    Some (match r with Ok _ => Ok tt | Err _ => Err VerificationError end).
End VecClients.
