(** * Model of the bench of payments

    relations/benches/coin.rs 104-350: verification of a single signed payment, and of many
    payments in two batches, one for each curve.  The code of the two values of the feature
    [parallel] is modelled separately.  A panic is [None].  Randomness is passed as
    arguments. *)
From Verif Require Export Coin SelBench.
Local Open Scope F_scope.

Section PourBench.
  Context {F0 F1 : PField} {P0 : SWCurve F1 F0} {P1 : SWCurve F0 F1} {FC : Field} {C : VSpace FC}.
  Variables (E0 : TrEnv P0) (E1 : TrEnv P1) (enc0 : P0 -> bytes) (enc1 : P1 -> bytes) (sg : SigScheme FC C) (enc_pk : C -> bytes) (sha3 : bytes -> bytes).

  (** benches/coin.rs 228-250 [verify_single_with_deserialization]: [rr0], [rr1] are the scalars
      drawn by the verifiers *)
  Definition bench_single (dbg : bool) (L : nat) (prm : SRParams P0 P1) (t : CurveTree P0 P1) (dec_pour : bytes -> option (Pour P0 P1 C * bytes)) (tx : SignedTx FC) (rr0 : F0) (rr1 : F1) : option unit :=
    do (vt0, vt1) <- tx_verify E0 E1 enc0 enc1 sg enc_pk sha3 dbg L prm t bench_transcript rr0 rr1 dec_pour tx;
    do _ <- unwrap (batch_verify [vt0] [] (sl_pc (even_p prm)) (sl_bp (even_p prm)));
    unwrap (batch_verify [vt1] [] (sl_pc (odd_p prm)) (sl_bp (odd_p prm))).

  (** benches/coin.rs 262-291 (without the feature [parallel]).  A job is a payment with the
      scalars drawn by its two verifiers, the code takes copies of one payment;
      [ws0], [ws1]: the random weights of [batch_verify] *)
  Definition pours_sequential (dbg : bool) (L : nat) (prm : SRParams P0 P1) (t : CurveTree P0 P1) (jobs : list (Pour P0 P1 C * F0 * F1)) (ws0 : list F0) (ws1 : list F1) : option unit :=
    do vts <- all_some (map (fun '(po, rr0, rr1) => pour_verify E0 E1 enc0 enc1 enc_pk sha3 dbg L prm t bench_transcript rr0 rr1 po) jobs);
    do _ <- unwrap (batch_verify (map fst vts) ws0 (sl_pc (even_p prm)) (sl_bp (even_p prm)));
    unwrap (batch_verify (map snd vts) ws1 (sl_pc (odd_p prm)) (sl_bp (odd_p prm))).

  (** benches/coin.rs 294-300: the two completed paths of a payment.  The parallel iterator is lazy,
      both of its consumers compute the paths. *)
  Definition pour_paths (t : CurveTree P0 P1) (po : Pour P0 P1 C) : option (Path P0 P1 * Path P0 P1) :=
    do p0 <- verification_commitments t (po_path0 po);
    do p1 <- verification_commitments t (po_path1 po);
    Some (p0, p1).
  (** benches/coin.rs 305-315; src/coin.rs 421-458 [even_verification_gadget] *)
  Definition pour_entry0 (dbg : bool) (L : nat) (prm : SRParams P0 P1) (t : CurveTree P0 P1) (po : Pour P0 P1 C) (rr : F0) : option (VTuple P0) :=
    do (p0, p1) <- pour_paths t po;
    do t0 <- pour_even_circuit E0 enc1 enc_pk sha3 dbg L prm t po p0 p1 (v_new bench_transcript);
    unwrap (v_scalars_and_points E0 dbg rr (po_even po) t0).
  (** benches/coin.rs 325-335; src/coin.rs 461-488 [odd_verification_gadget] *)
  Definition pour_entry1 (dbg : bool) (L : nat) (prm : SRParams P0 P1) (t : CurveTree P0 P1) (po : Pour P0 P1 C) (rr : F1) : option (VTuple P1) :=
    do (p0, p1) <- pour_paths t po;
    do t1 <- pour_odd_circuit E1 enc0 L prm t p0 p1 (v_new bench_transcript);
    unwrap (v_scalars_and_points E1 dbg rr (po_odd po) t1).
  (** benches/coin.rs 292-345 (feature [parallel]); the two closures of [rayon::join] are run one
      after the other here *)
  Definition pours_parallel (dbg : bool) (L : nat) (prm : SRParams P0 P1) (t : CurveTree P0 P1) (jobs : list (Pour P0 P1 C * F0 * F1)) (ws0 : list F0) (ws1 : list F1) : option unit :=
    do vts0 <- all_some (map (fun '(po, rr0, _) => pour_entry0 dbg L prm t po rr0) jobs);
    do _ <- unwrap (batch_verify vts0 ws0 (sl_pc (even_p prm)) (sl_bp (even_p prm)));
    do vts1 <- all_some (map (fun '(po, _, rr1) => pour_entry1 dbg L prm t po rr1) jobs);
    unwrap (batch_verify vts1 ws1 (sl_pc (odd_p prm)) (sl_bp (odd_p prm))).
End PourBench.
