(** * Model of the accumulator

    relations/benches/accumulator.rs 55-319.  Leaves of a curve tree are vector commitments
    to field elements; a proof shows that a public element is one of the elements of some
    leaf.  A panic is [None].  Randomness is passed as arguments. *)
From Verif Require Export Coin.
Local Open Scope F_scope.

Section Accumulator.
  Context {F0 F1 : PField} {P0 : SWCurve F1 F0} {P1 : SWCurve F0 F1}.
  Variables (E0 : TrEnv P0) (E1 : TrEnv P1) (enc0 : P0 -> bytes) (enc1 : P1 -> bytes).

  (** accumulator.rs 82-85: a leaf, without blinding *)
  Definition acc_leaf (prm : SRParams P0 P1) (elements : list F0) : option P0 := sl_commit (even_p prm) elements 0 0.

  (** accumulator.rs 90, 94: [Transcript::new(b"acc")], for both curves (merlin's own
      protocol label is left out) *)
  Definition acc_transcript : Transcript := append_message [] "dom-sep" (str_bytes "acc").

  (** accumulator.rs 107-118: the elements are committed to again and one of them is
      selected *)
  Definition acc_open (pc0 : PedersenGens P0) (prm : SRParams P0 P1) (elements : list F0) (blinding element : F0) (s : PState F0) : option (PState F0 * P0) :=
    do (s, (comm, vars)) <- p_commit_vec E0 pc0 (sl_bp (even_p prm)) s elements blinding;
    do (s, _) <- prun E0 (select (lc_const element) (map lc_var vars)) s;
    Some (s, comm).

  (** accumulator.rs 89-118: the circuits of the prover.  The code builds a tree with one
      leaf and selects the index 0; here the tree and the index are arbitrary.  The
      comparison in line 112 is done after [select]: it panics in both cases. *)
  Definition acc_circuits (oc : bool) (L : nat) (prm : SRParams P0 P1) (t : CurveTree P0 P1) (index : N) (elements : list F0) (element : F0)
    (os : nat -> F1) (es : nat -> F0) : option (PState F0 * PState F1 * Path P0 P1) :=
    do (s0, s1, (path, rerandomization)) <- tree_prove E0 E1 enc0 enc1 oc L t index 0 (sl_pc (even_p prm)) (sl_pc (odd_p prm)) prm os es (p_new acc_transcript) (p_new acc_transcript);
    do (s0, comm) <- acc_open (sl_pc (even_p prm)) prm elements rerandomization element s0;
    guard (veqb comm (pa_selected path)) (Some (s0, s1, path)).

  (** accumulator.rs 89-149: circuits and proofs *)
  Definition acc_prove (dbg oc : bool) (rnd0 : PRand F0) (rnd1 : PRand F1) (L : nat) (prm : SRParams P0 P1) (t : CurveTree P0 P1) (index : N) (elements : list F0) (element : F0)
    (os : nat -> F1) (es : nat -> F0) : option (Path P0 P1 * R1CSProof P0 * R1CSProof P1) :=
    do (s0, s1, path) <- acc_circuits oc L prm t index elements element os es;
    do (pf0, _) <- unwrap (r1cs_prove E0 dbg rnd0 (sl_pc (even_p prm)) (sl_bp (even_p prm)) s0);
    do (pf1, _) <- unwrap (r1cs_prove E1 dbg rnd1 (sl_pc (odd_p prm)) (sl_bp (odd_p prm)) s1);
    Some (path, pf0, pf1).

  (** accumulator.rs 189-204, 261-272: the circuit of the verifier over the curve of the
      leaves; [srv]: the completed path, [leaf]: the commitment in the path as received *)
  Definition acc_even (L : nat) (prm : SRParams P0 P1) (t : CurveTree P0 P1) (width : nat) (element : F0) (srv : Path P0 P1) (leaf : P0) : option (VState P0) :=
    do t0 <- even_gadget E0 enc1 L prm t srv (v_new acc_transcript);
    let '(t0, vars) := v_commit_vec E0 t0 width leaf in
    do (t0, _) <- vrun E0 (select (lc_const element) (map lc_var vars)) t0;
    Some t0.
  (** accumulator.rs 221-227, 289-295: the circuit over the other curve *)
  Definition acc_odd (L : nat) (prm : SRParams P0 P1) (t : CurveTree P0 P1) (srv : Path P0 P1) : option (VState P1) :=
    odd_gadget E1 enc0 L prm t srv (v_new acc_transcript).

  (** accumulator.rs 182-207, 254-278: one entry of the batch of each curve; [rr]: the
      random scalar of [verification_scalars_and_points] *)
  Definition acc_entry0 (dbg : bool) (L : nat) (prm : SRParams P0 P1) (t : CurveTree P0 P1) (width : nat) (element : F0) (path : Path P0 P1) (pf : R1CSProof P0) (rr : F0) : option (VTuple P0) :=
    do srv <- verification_commitments t path;
    do t0 <- acc_even L prm t width element srv (pa_selected path);
    unwrap (v_scalars_and_points E0 dbg rr pf t0).
  (** accumulator.rs 219-233, 287-301 *)
  Definition acc_entry1 (dbg : bool) (L : nat) (prm : SRParams P0 P1) (t : CurveTree P0 P1) (path : Path P0 P1) (pf : R1CSProof P1) (rr : F1) : option (VTuple P1) :=
    do srv <- verification_commitments t path;
    do t1 <- acc_odd L prm t srv;
    unwrap (v_scalars_and_points E1 dbg rr pf t1).

  (** accumulator.rs 172-311: the same proof is verified as often as there are scalars in
      [rr0] (and in [rr1]) in two batches; [ws0], [ws1]: the random weights of
      [batch_verify] *)
  Definition acc_verify (dbg : bool) (L : nat) (prm : SRParams P0 P1) (t : CurveTree P0 P1) (width : nat) (element : F0) (path : Path P0 P1) (pf0 : R1CSProof P0) (pf1 : R1CSProof P1)
    (rr0 ws0 : list F0) (rr1 ws1 : list F1) : option unit :=
    do vts0 <- all_some (map (acc_entry0 dbg L prm t width element path pf0) rr0);
    do _ <- unwrap (batch_verify vts0 ws0 (sl_pc (even_p prm)) (sl_bp (even_p prm)));
    do vts1 <- all_some (map (acc_entry1 dbg L prm t path pf1) rr1);
    unwrap (batch_verify vts1 ws1 (sl_pc (odd_p prm)) (sl_bp (odd_p prm))).
End Accumulator.
