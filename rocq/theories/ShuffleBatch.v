(** * Model of the helpers and benches around the shuffle proof

    bulletproofs/tests/r1cs.rs 170-248 and bulletproofs/benches/r1cs.rs 147-235: one shuffle
    proved and verified, and many shuffles verified in one batch.  A panic, which a failing
    [assert!] or [unwrap] is, is [None].  Randomness is passed as arguments. *)
From Verif Require Export Shuffle Coin.
Local Open Scope F_scope.

Section ShuffleBatch.
  Context {F : Field} {V : VSpace F}.
  Variables (E : TrEnv V) (chain : bytes -> nat -> V).

  (** tests/r1cs.rs 176, 212: the generators for shuffles of [k] values *)
  Definition kshuffle_gens (k : nat) : BPGens V := bp_new chain (next_power_of_two (2 * k)) 1.
  (** benches/r1cs.rs 147-150, 155, 194: the generators of the benches *)
  Definition kshuffle_bench_gens : BPGens V := bp_new chain (2 * 2 ^ 10) 1.

  (** tests/r1cs.rs 178-203 and benches/r1cs.rs 199-229: a shuffle with the blindings of the
      commitments and the randomness of the prover, [rr] is the scalar drawn by the
      verifier, [tr] the transcript after [Transcript::new] with the name of the test
      ("ShuffleProofTest") or of the bench ("ShuffleBenchmark").  The benches repeat the
      last step; benches/r1cs.rs 159-175 is the first step alone. *)
  Definition kshuffle_run (dbg : bool) (rnd : PRand F) (rr : F) (pc : PedersenGens V) (g : BPGens V) (tr : Transcript)
      (input output : list (F * F)) : option unit :=
    do (pf, cin, cout) <- unwrap (shuffle_prove E dbg rnd pc g tr input output);
    unwrap (shuffle_verify E dbg rr pf pc g tr cin cout).
  (** tests/r1cs.rs 170-204 [kshuffle_helper] *)
  Definition kshuffle_helper (dbg : bool) (rnd : PRand F) (rr : F) (pc : PedersenGens V) (tr : Transcript)
      (input output : list (F * F)) : option unit :=
    kshuffle_run dbg rnd rr pc (kshuffle_gens (length input)) tr input output.

  (** tests/r1cs.rs 232-247: a job is a proof with the commitments and the scalar drawn by
      the verifier; [ws]: the random weights of [batch_verify] *)
  Definition shuffles_verify (dbg : bool) (pc : PedersenGens V) (g : BPGens V) (tr : Transcript)
      (jobs : list (R1CSProof V * list V * list V * F)) (ws : list F) : option unit :=
    do vts <- all_some (map (fun '(pf, cin, cout, rr) => unwrap (shuffle_tuple E dbg rr pf tr cin cout)) jobs);
    unwrap (batch_verify vts ws pc g).
  (** tests/r1cs.rs 214-230: the proofs; a shuffle comes with its blindings and the
      randomness of its prover *)
  Definition shuffles_prove (dbg : bool) (pc : PedersenGens V) (g : BPGens V) (tr : Transcript)
      (shuffles : list (PRand F * list (F * F) * list (F * F))) : option (list (R1CSProof V * list V * list V)) :=
    all_some (map (fun '(rnd, input, output) => unwrap (shuffle_prove E dbg rnd pc g tr input output)) shuffles).
  (** tests/r1cs.rs 206-248 [kshuffle_batch_helper] for shuffles of [k] values; [rrs] are the
      scalars drawn by the verifiers *)
  Definition kshuffle_batch_helper (dbg : bool) (k : nat) (pc : PedersenGens V) (tr : Transcript)
      (shuffles : list (PRand F * list (F * F) * list (F * F))) (rrs ws : list F) : option unit :=
    do ps <- shuffles_prove dbg pc (kshuffle_gens k) tr shuffles;
    shuffles_verify dbg pc (kshuffle_gens k) tr (combine ps rrs) ws.
End ShuffleBatch.
