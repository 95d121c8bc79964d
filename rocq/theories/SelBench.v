(** * Model of the membership benches

    relations/benches/select_rerandomize.rs 103-450 and
    relations/benches/batched_select_rerandomize.rs 143-864: membership proofs for one or
    several paths, and the verification of many copies in two batches.  The code of the two
    values of the feature [parallel] is modelled separately where it differs.  A panic is
    [None].  Randomness is passed as arguments. *)
From Verif Require Export Accumulator.
Local Open Scope F_scope.

Section SelBench.
  Context {F0 F1 : PField} {P0 : SWCurve F1 F0} {P1 : SWCurve F0 F1}.
  Variables (E0 : TrEnv P0) (E1 : TrEnv P1) (enc0 : P0 -> bytes) (enc1 : P1 -> bytes).

  (** batched_select_rerandomize.rs 168, 172; select_rerandomize.rs 126, 130:
      [Transcript::new(b"select_and_rerandomize")] (merlin's own protocol label is left out) *)
  Definition bench_transcript : Transcript := append_message [] "dom-sep" (str_bytes "select_and_rerandomize").

  (** batched_select_rerandomize.rs 176-188: one membership gadget after the other with the same
      two provers.  A job is an index with the scalars drawn for it; the code uses the
      indices 0 to M - 1.  select_rerandomize.rs 134-141 is the case of one job. *)
  Fixpoint naive_circuits (oc : bool) (L : nat) (prm : SRParams P0 P1) (t : CurveTree P0 P1) (jobs : list (N * (nat -> F1) * (nat -> F0))) (s0 : PState F0) (s1 : PState F1)
    : option (PState F0 * PState F1 * list (Path P0 P1)) :=
    match jobs with
    | [] => Some (s0, s1, [])
    | (index, os, es) :: jobs' =>
      do (s0, s1, (path, _)) <- tree_prove E0 E1 enc0 enc1 oc L t index 0 (sl_pc (even_p prm)) (sl_pc (odd_p prm)) prm os es s0 s1;
      do (s0, s1, paths) <- naive_circuits oc L prm t jobs' s0 s1;
      Some (s0, s1, path :: paths)
    end.
  (** batched_select_rerandomize.rs 167-213; select_rerandomize.rs 125-172: circuits and proofs *)
  Definition naive_prove (dbg oc : bool) (rnd0 : PRand F0) (rnd1 : PRand F1) (L : nat) (prm : SRParams P0 P1) (t : CurveTree P0 P1) (jobs : list (N * (nat -> F1) * (nat -> F0)))
    : option (list (Path P0 P1) * R1CSProof P0 * R1CSProof P1) :=
    do (s0, s1, paths) <- naive_circuits oc L prm t jobs (p_new bench_transcript) (p_new bench_transcript);
    do (pf0, _) <- unwrap (r1cs_prove E0 dbg rnd0 (sl_pc (even_p prm)) (sl_bp (even_p prm)) s0);
    do (pf1, _) <- unwrap (r1cs_prove E1 dbg rnd1 (sl_pc (odd_p prm)) (sl_bp (odd_p prm)) s1);
    Some (paths, pf0, pf1).

  (** batched_select_rerandomize.rs 399-405: the gadgets of all completed paths with one
      verifier *)
  Fixpoint naive_even (L : nat) (prm : SRParams P0 P1) (t : CurveTree P0 P1) (srvs : list (Path P0 P1)) (t0 : VState P0) : option (VState P0) :=
    match srvs with
    | [] => Some t0
    | srv :: srvs' => do t0' <- even_gadget E0 enc1 L prm t srv t0; naive_even L prm t srvs' t0'
    end.
  (** batched_select_rerandomize.rs 425-431: the same for the other curve *)
  Fixpoint naive_odd (L : nat) (prm : SRParams P0 P1) (t : CurveTree P0 P1) (srvs : list (Path P0 P1)) (t1 : VState P1) : option (VState P1) :=
    match srvs with
    | [] => Some t1
    | srv :: srvs' => do t1' <- odd_gadget E1 enc0 L prm t srv t1; naive_odd L prm t srvs' t1'
    end.
  (** batched_select_rerandomize.rs 381-411: one entry of the batch; select_rerandomize.rs 340-362,
      404-419 for one path; [rr]: the random scalar of [verification_scalars_and_points] *)
  Definition naive_entry0 (dbg : bool) (L : nat) (prm : SRParams P0 P1) (t : CurveTree P0 P1) (pf : R1CSProof P0) (paths : list (Path P0 P1)) (rr : F0) : option (VTuple P0) :=
    do srvs <- all_some (map (verification_commitments t) paths);
    do t0 <- naive_even L prm t srvs (v_new bench_transcript);
    unwrap (v_scalars_and_points E0 dbg rr pf t0).
  (** batched_select_rerandomize.rs 381-391, 422-437: the same for the other curve *)
  Definition naive_entry1 (dbg : bool) (L : nat) (prm : SRParams P0 P1) (t : CurveTree P0 P1) (pf : R1CSProof P1) (paths : list (Path P0 P1)) (rr : F1) : option (VTuple P1) :=
    do srvs <- all_some (map (verification_commitments t) paths);
    do t1 <- naive_odd L prm t srvs (v_new bench_transcript);
    unwrap (v_scalars_and_points E1 dbg rr pf t1).

  (** batched_select_rerandomize.rs 379-447 (feature [parallel]): the same proofs are verified as
      often as there are scalars in [rr0] (and in [rr1]); [ws0], [ws1]: the random weights of
      [batch_verify] *)
  Definition naive_parallel (dbg : bool) (L : nat) (prm : SRParams P0 P1) (t : CurveTree P0 P1) (paths : list (Path P0 P1)) (pf0 : R1CSProof P0) (pf1 : R1CSProof P1)
    (rr0 ws0 : list F0) (rr1 ws1 : list F1) : option unit :=
    do vts0 <- all_some (map (naive_entry0 dbg L prm t pf0 paths) rr0);
    do _ <- unwrap (batch_verify vts0 ws0 (sl_pc (even_p prm)) (sl_bp (even_p prm)));
    do vts1 <- all_some (map (naive_entry1 dbg L prm t pf1 paths) rr1);
    unwrap (batch_verify vts1 ws1 (sl_pc (odd_p prm)) (sl_bp (odd_p prm))).
  (** batched_select_rerandomize.rs 448-502 (without the feature): a new verifier for every path of
      every copy, with the proof for all paths; [rr0], [rr1]: a list of scalars for each copy,
      one for each path.  The entries of the two curves are computed in turn in the code; a
      panic is a panic in either order. *)
  Definition naive_sequential (dbg : bool) (L : nat) (prm : SRParams P0 P1) (t : CurveTree P0 P1) (paths : list (Path P0 P1)) (pf0 : R1CSProof P0) (pf1 : R1CSProof P1)
    (rr0 : list (list F0)) (ws0 : list F0) (rr1 : list (list F1)) (ws1 : list F1) : option unit :=
    do vts0 <- all_some (flat_map (fun rrs => map (fun x => naive_entry0 dbg L prm t pf0 [fst x] (snd x)) (combine paths rrs)) rr0);
    do _ <- unwrap (batch_verify vts0 ws0 (sl_pc (even_p prm)) (sl_bp (even_p prm)));
    do vts1 <- all_some (flat_map (fun rrs => map (fun x => naive_entry1 dbg L prm t pf1 [fst x] (snd x)) (combine paths rrs)) rr1);
    unwrap (batch_verify vts1 ws1 (sl_pc (odd_p prm)) (sl_bp (odd_p prm))).

  (** batched_select_rerandomize.rs 750-814, 815-862: copies of one batched proof; the two branches
      differ in the order of the computations only.  Both circuits are built before the two
      entries here. *)
  Definition grafted_verify (dbg : bool) (L M : nat) (prm : SRParams P0 P1) (t : CurveTree P0 P1) (p : MPath P0 P1) (pf0 : R1CSProof P0) (pf1 : R1CSProof P1)
    (rr0 ws0 : list F0) (rr1 ws1 : list F1) : option unit :=
    do (t0, t1, _) <- msr_verify E0 E1 enc0 false L M prm t p (v_new bench_transcript) (v_new bench_transcript);
    do vts0 <- all_some (map (fun rr => unwrap (v_scalars_and_points E0 dbg rr pf0 t0)) rr0);
    do _ <- unwrap (batch_verify vts0 ws0 (sl_pc (even_p prm)) (sl_bp (even_p prm)));
    do vts1 <- all_some (map (fun rr => unwrap (v_scalars_and_points E1 dbg rr pf1 t1)) rr1);
    unwrap (batch_verify vts1 ws1 (sl_pc (odd_p prm)) (sl_bp (odd_p prm))).
End SelBench.
