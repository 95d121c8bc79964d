(** * Two small users of the constraint system

    bulletproofs/tests/r1cs.rs 297-505: the example gadget and the range proof for a single
    commitment, from the values to the proof and from the commitment to the decision of the
    verifier.  A panic is [None]. *)
From Verif Require Export R1CS Gadgets Shuffle.
Local Open Scope F_scope.

Section Clients.
  Context {F : Field} {V : VSpace F}.
  Variable E : TrEnv V.

  (** [Transcript::new(label)] (merlin's own protocol label is left out): r1cs.rs 323, 360,
      474, 492 *)
  Definition test_transcript (label : string) : Transcript := append_message [] "dom-sep" (str_bytes label).

  (** r1cs.rs 472-487: the prover of [range_proof_helper]; [v] is the u64, [blinding] the
      random scalar of line 479.  The gadget of lines 414-447 is the same text as
      relations/src/range_proof.rs 5-37.  Generators are an argument, the code takes 128. *)
  Definition range_prove (dbg : bool) (rnd : PRand F) (pc : PedersenGens V) (g : BPGens V) (v : N) (blinding : F) (n : nat) : option (Res (R1CSProof V * V)) :=
    let '(s, (com, var)) := p_commit E pc (p_new (test_transcript "RangeProofTest")) (fN v) blinding in
    match prun E (range_proof dbg (lc_var var) (Some v) n) s with
    | Some (s, Ok _) => dor r <- r1cs_prove E dbg rnd pc g s; Some (Ok (fst r, com))
    | _ => None
    end.
  (** r1cs.rs 491-498: the circuit of the verifier *)
  Definition range_statement (dbg : bool) (com : V) (n : nat) : option (VState V) :=
    let '(t, var) := v_commit E (v_new (test_transcript "RangeProofTest")) com in
    match vrun E (range_proof dbg (lc_var var) None n) t with
    | Some (t, Ok _) => Some t
    | _ => None
    end.
  (** r1cs.rs 491-502: the verifier of [range_proof_helper] *)
  Definition range_verify (dbg : bool) (rr : F) (pf : R1CSProof V) (pc : PedersenGens V) (g : BPGens V) (com : V) (n : nat) : option (Res unit) :=
    do t <- range_statement dbg com n; r1cs_verify E dbg rr pf pc g t.

  (** r1cs.rs 299-310 [example_gadget] *)
  Definition example_gadget (a1 a2 b1 b2 c1 c2 : LC F) : Prog F unit :=
    PMul (lc_add a1 a2) (lc_add b1 b2) (fun '(_, _, c_var) => PConstrain (lc_sub (lc_add c1 c2) (lc_var c_var)) (PRet tt)).
  (** r1cs.rs 335-343, 368-376: the gadget with five commitments and a public value *)
  Definition example_circuit (vars : list Var) (c2 : N) : Prog F unit :=
    match vars with
    | a1 :: a2 :: b1 :: b2 :: c1 :: _ => example_gadget (lc_var a1) (lc_var a2) (lc_var b1) (lc_var b2) (lc_var c1) (lc_const (fN c2))
    | _ => PPanic
    end.
  (** r1cs.rs 313-350 [example_gadget_proof]; [values]: the five u64 with their random
      blindings *)
  Definition example_prove (dbg : bool) (rnd : PRand F) (pc : PedersenGens V) (g : BPGens V) (values : list (N * F)) (c2 : N) : option (Res (R1CSProof V * list V)) :=
    let '(s, (coms, vars)) := p_commits E pc (p_new (test_transcript "R1CSExampleGadget")) (map (fun '(v, b) => (fN v, b)) values) in
    do (s, _) <- prun E (example_circuit vars c2) s;
    dor r <- r1cs_prove E dbg rnd pc g s; Some (Ok (fst r, coms)).
  (** r1cs.rs 360-376: the circuit of the verifier *)
  Definition example_statement (coms : list V) (c2 : N) : option (VState V) :=
    let '(t, vars) := v_commits E (v_new (test_transcript "R1CSExampleGadget")) coms in
    do (t, _) <- vrun E (example_circuit vars c2) t; Some t.
  (** r1cs.rs 353-382 [example_gadget_verify]: every error becomes [VerificationError] *)
  Definition example_verify (dbg : bool) (rr : F) (pf : R1CSProof V) (pc : PedersenGens V) (g : BPGens V) (coms : list V) (c2 : N) : option (Res unit) :=
    do t <- example_statement coms c2;
    do r <- r1cs_verify E dbg rr pf pc g t;
    Some (match r with Ok _ => Ok tt | Err _ => Err VerificationError end).
End Clients.
