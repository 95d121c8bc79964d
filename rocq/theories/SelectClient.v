(** * The user of [select] in its test

    relations/src/select.rs 37-81: a commitment to one value and a vector commitment, from
    the values to the proof and from the commitments to the decision of the verifier.  A panic
    is [None].  The number of values (256), the index (42) and the number of generators (1024)
    of the code are arguments. *)
From Verif Require Export Clients Gadgets.
Local Open Scope F_scope.

Section SelectClient.
  Context {F : Field} {V : VSpace F}.
  Variable E : TrEnv V.

  (** select.rs 49-58: the commitments of the prover; [xs], [h]: the vector with its blinding,
      [x], [hx]: the value with its blinding *)
  Definition select_commit (pc : PedersenGens V) (g : BPGens V) (xs : list F) (h x hx : F) : option (PState F * (V * list Var) * (V * Var)) :=
    do (s, cv) <- p_commit_vec E pc g (p_new (test_transcript "select")) xs h;
    let '(s, cx) := p_commit E pc s x hx in Some (s, cv, cx).
  (** select.rs 42-68: the prover.  The code unwraps the result of [prove]. *)
  Definition select_prove (dbg : bool) (rnd : PRand F) (pc : PedersenGens V) (g : BPGens V) (xs : list F) (h x hx : F) : option (Res (R1CSProof V * V * V)) :=
    do (s, (com, vars), (cx, vx)) <- select_commit pc g xs h x hx;
    do (s, _) <- prun E (select (lc_var vx) (map lc_var vars)) s;
    dor r <- r1cs_prove E dbg rnd pc g s; Some (Ok (fst r, com, cx)).
  (** select.rs 70-80: the circuit of the verifier for a vector of [n] values *)
  Definition select_statement (n : nat) (com cx : V) : option (VState V) :=
    let '(t, vars) := v_commit_vec E (v_new (test_transcript "select")) n com in
    let '(t, vx) := v_commit E t cx in
    do (t, _) <- vrun E (select (lc_var vx) (map lc_var vars)) t; Some t.
  (** select.rs 70-81: the verifier *)
  Definition select_verify (dbg : bool) (rr : F) (pf : R1CSProof V) (pc : PedersenGens V) (g : BPGens V) (n : nat) (com cx : V) : option (Res unit) :=
    do t <- select_statement n com cx; r1cs_verify E dbg rr pf pc g t.
End SelectClient.
