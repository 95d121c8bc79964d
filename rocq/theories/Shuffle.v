(** * The shuffle proof: a user of the two-phase constraint system

    [ShuffleProof] (bulletproofs/tests/r1cs.rs) proves that committed outputs are a
    permutation of committed inputs.  It is the one client in the repository that uses
    randomized constraints. *)
From Verif Require Export R1CS.
Local Open Scope F_scope.

Section Shuffle.
  Context {F : Field} {V : VSpace F}.
  Variable E : TrEnv V.

  (** bulletproofs/tests/r1cs.rs 44-47 and 53-56: the fold over [i = k-3 .. 0]; [xs]
      holds the variables in that order. *)
  Fixpoint shuffle_fold (z : F) (prev : Var) (xs : list Var) : Prog F Var :=
    match xs with
    | [] => PRet prev
    | x :: r => PMul (lc_var prev) (lc_sub (lc_var x) (lc_const z)) (fun '(_, _, o) => shuffle_fold z o r)
    end.
  (** r1cs.rs 41-47 for [x] and 50-56 for [y]: the product of all [x_i - z].  With fewer
      than two variables an index is out of range. *)
  Definition shuffle_product (z : F) (xs : list Var) : Prog F Var :=
    match rev xs with
    | a :: b :: r =>
      PMul (lc_sub (lc_var a) (lc_const z)) (lc_sub (lc_var b) (lc_const z)) (fun '(_, _, o) => shuffle_fold z o r)
    | _ => PPanic
    end.
  (** r1cs.rs 37-62: the callback *)
  Definition shuffle_callback (x y : list Var) : Prog F (Res unit) :=
    PChallenge "shuffle challenge" (fun z =>
      pbind (shuffle_product z x) (fun ox =>
      pbind (shuffle_product z y) (fun oy =>
      PConstrain (lc_sub (lc_var ox) (lc_var oy)) (PRet (Ok tt))))).
  (** r1cs.rs 24-63 [ShuffleProof::gadget] *)
  Definition shuffle_gadget (x y : list Var) : Prog F (Res unit) :=
    if Nat.eqb (length x) (length y) then
      match x, y with
      | [x0], [y0] => PConstrain (lc_sub (lc_var y0) (lc_var x0)) (PRet (Ok tt))
      | _, _ => PSpecify (shuffle_callback x y) (PRet (Ok tt))
      end
    else PPanic.

  (** r1cs.rs 79-81, 119-121: the caller's transcript with the parameters *)
  Definition shuffle_transcript (tr : Transcript) (k : nat) : Transcript :=
    append_u64 (append_message tr "dom-sep" (str_bytes "ShuffleProof")) "k" (N.of_nat k).

  (** r1cs.rs 89-97: committing to values in turn; the pairs are the values and
      the random blindings. *)
  Fixpoint p_commits (pc : PedersenGens V) (s : PState F) (l : list (F * F)) : PState F * (list V * list Var) :=
    match l with
    | [] => (s, ([], []))
    | (v, b) :: r =>
      let '(s, (c, u)) := p_commit E pc s v b in
      let '(s, (cs, us)) := p_commits pc s r in
      (s, (c :: cs, u :: us))
    end.
  (** r1cs.rs 125-133 *)
  Fixpoint v_commits (s : VState V) (l : list V) : VState V * list Var :=
    match l with
    | [] => (s, [])
    | c :: r =>
      let '(s, u) := v_commit E s c in
      let '(s, us) := v_commits s r in
      (s, u :: us)
    end.

  (** r1cs.rs 70-104 [ShuffleProof::prove]; the inputs and outputs come with their random
      blindings, [rnd] is the randomness of the prover. *)
  Definition shuffle_prove (dbg : bool) (rnd : PRand F) (pc : PedersenGens V) (g : BPGens V) (tr : Transcript)
      (input output : list (F * F)) : option (Res (R1CSProof V * list V * list V)) :=
    let '(s, (cin, x)) := p_commits pc (p_new (shuffle_transcript tr (length input))) input in
    let '(s, (cout, y)) := p_commits pc s output in
    match prun E (shuffle_gadget x y) s with
    | None => None
    | Some (_, Err e) => Some (Err e)
    | Some (s, Ok _) => dor r <- r1cs_prove E dbg rnd pc g s; Some (Ok (fst r, cin, cout))
    end.

  (** r1cs.rs 119-135: the circuit of the verifier *)
  Definition shuffle_statement (tr : Transcript) (input output : list V) : option (Res (VState V)) :=
    let '(s, x) := v_commits (v_new (shuffle_transcript tr (length input))) input in
    let '(s, y) := v_commits s output in
    match vrun E (shuffle_gadget x y) s with
    | None => None
    | Some (_, Err e) => Some (Err e)
    | Some (s, Ok _) => Some (Ok s)
    end.
  (** r1cs.rs 109-138 [ShuffleProof::verify]; [rr] is the random scalar of the verifier *)
  Definition shuffle_verify (dbg : bool) (rr : F) (pf : R1CSProof V) (pc : PedersenGens V) (g : BPGens V) (tr : Transcript)
      (input output : list V) : option (Res unit) :=
    dor s <- shuffle_statement tr input output; r1cs_verify E dbg rr pf pc g s.
  (** r1cs.rs 140-166 [ShuffleProof::verification_scalars_and_points] *)
  Definition shuffle_tuple (dbg : bool) (rr : F) (pf : R1CSProof V) (tr : Transcript) (input output : list V)
      : option (Res (VTuple V)) :=
    dor s <- shuffle_statement tr input output; v_scalars_and_points E dbg rr pf s.
End Shuffle.
