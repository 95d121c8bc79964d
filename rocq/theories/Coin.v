(** * Model of the anonymous-payment layer

    relations/src/coin.rs.  A panic is [None].  Randomness is passed as arguments. *)
From Verif Require Export Serial.
Local Open Scope F_scope.

(** ** Signatures

    The code uses Schnorr signatures of ark_crypto_primitives through this interface
    (the signature parameters are fixed): public keys are points of [C], a signature is the
    pair of the prover's response and the verifier's challenge.  [None] is an [Err]. *)
Record SigScheme (FC : Field) (C : VSpace FC) := mkSig {
  sg_sign : FC -> bytes -> FC -> option (FC * FC);       (* secret key, message, randomness *)
  sg_rand_sig : FC * FC -> bytes -> option (FC * FC);    (* randomize_signature *)
  sg_rand_pk : C -> bytes -> option C;                   (* randomize_public_key *)
  sg_verify : C -> bytes -> FC * FC -> option bool }.    (* Ok(true) / Ok(false) / Err *)
Arguments mkSig {FC C}. Arguments sg_sign {FC C}. Arguments sg_rand_sig {FC C}. Arguments sg_rand_pk {FC C}. Arguments sg_verify {FC C}.

Section Coin.
  Context {F0 F1 : PField} {P0 : SWCurve F1 F0} {P1 : SWCurve F0 F1} {FC : Field} {C : VSpace FC}.
  Variables (E0 : TrEnv P0) (E1 : TrEnv P1) (enc0 : P0 -> bytes) (enc1 : P1 -> bytes).
  Variables (sg : SigScheme FC C) (enc_pk : C -> bytes) (enc_sc : FC -> bytes) (sha3_512 : bytes -> bytes).

  (** coin.rs 147-155 [element_from_bytes_stat]: a hash read as a number, least significant
      byte first, reduced modulo the order *)
  Definition element_from_bytes_stat (bs : bytes) : F0 := fN (le_value (sha3_512 bs)).
  (** coin.rs 82-86 [pk_to_scalar] *)
  Definition pk_to_scalar (pk : C) : F0 := element_from_bytes_stat (enc_pk pk).
  (** coin.rs 88-98 [rerandomized_pk] *)
  Definition rerandomized_pk (pk : C) (rerandomization : FC) : option C := sg_rand_pk sg pk (enc_sc rerandomization).

  (** coin.rs 22-27 [Coin] *)
  Record CoinT := mkCoin { co_value : N; co_tag : F0; co_blinding : F0; co_pk_randomness : FC }.

  (** coin.rs 56-80 [new]; [pkr], [blinding]: the random scalars *)
  Definition coin_new (prm : SLParams P0) (value : N) (pk : C) (pkr : FC) (blinding : F0) : option (CoinT * P0) :=
    do randomized_pk <- rerandomized_pk pk pkr;
    let output_tag := pk_to_scalar randomized_pk in
    do coin_commitment <- sl_commit prm [fN value; output_tag] blinding 0;
    Some (mkCoin value output_tag blinding pkr, coin_commitment).

  (** coin.rs 36-54 [mint] *)
  Definition coin_mint (dbg : bool) (pc0 : PedersenGens P0) (prm : SLParams P0) (value : N) (pk : C) (pkr : FC) (blinding : F0) (s : PState F0)
    : option (PState F0 * (CoinT * P0 * Var)) :=
    do r <- coin_new prm value pk pkr blinding;
    let coin := fst r in
    do (s1, (comm, vars)) <- p_commit_vec E0 pc0 (sl_bp prm) s [fN value; co_tag coin] (co_blinding coin);
    do v <- nth_error vars 0;
    do (s2, res) <- prun E0 (range_proof dbg (lc_var v) (Some value) 64) s1;
    match res with Ok _ => Some (s2, (coin, comm, v)) | Err _ => None end.

  (** coin.rs 100-135 [prove_spend]; [os], [es]: the scalars of the path *)
  Definition prove_spend (oc : bool) (L : nat) (coin : CoinT) (index : N) (pc0 : PedersenGens P0) (pc1 : PedersenGens P1) (prm : SRParams P0 P1) (t : CurveTree P0 P1)
    (os : nat -> F1) (es : nat -> F0) (s0 : PState F0) (s1 : PState F1) : option (PState F0 * PState F1 * (Path P0 P1 * Var)) :=
    do (s0, s1, (path, rerandomization)) <- tree_prove E0 E1 enc0 enc1 oc L t index 0 pc0 pc1 prm os es s0 s1;
    do (s0, (comm, vars)) <- p_commit_vec E0 pc0 (sl_bp (even_p prm)) s0 [fN (co_value coin); co_tag coin] (co_blinding coin + rerandomization);
    guard (veqb (pa_selected path) comm)
      (do v0 <- nth_error vars 0; do v1 <- nth_error vars 1;
       Some (p_constrain s0 (lc_sub (lc_var v1) (lc_const (co_tag coin))), s1, (path, v0))).

  (** coin.rs 138-145 [verify_mint] *)
  Definition verify_mint (dbg : bool) (commitment : P0) (t : VState P0) : option (VState P0 * Var) :=
    let '(t1, vars) := v_commit_vec E0 t 2 commitment in
    do v <- nth_error vars 0;
    do (t2, res) <- vrun E0 (range_proof dbg (lc_var v) None 64) t1;
    match res with Ok _ => Some (t2, v) | Err _ => None end.

  (** coin.rs 157-162 [SpendingInfo], with the randomness of the spend *)
  Record Spending := mkSpending { sp_index : N; sp_coin : CoinT; sp_pk : C; sp_sk : FC; sp_os : nat -> F1; sp_es : nat -> F0 }.
  (** A coin to be minted: value, key of the receiver, randomness. *)
  Record Minting := mkMinting { mi_value : N; mi_pk : C; mi_pkr : FC; mi_blinding : F0 }.

  (** coin.rs 220-223, 450-453: minted minus spent *)
  Definition balance (m0 m1 i0 i1 : Var) : LC F0 := lc_sub (lc_sub (lc_add (lc_var m0) (lc_var m1)) (lc_var i0)) (lc_var i1).

  (** coin.rs 187-202: one of the two calls of [mint] *)
  Definition mint_of (dbg : bool) (pc0 : PedersenGens P0) (prm : SRParams P0 P1) (m : Minting) (s : PState F0) :=
    coin_mint dbg pc0 (even_p prm) (mi_value m) (mi_pk m) (mi_pkr m) (mi_blinding m) s.
  (** coin.rs 205-218: one of the two calls of [prove_spend] *)
  Definition spend_of (oc : bool) (L : nat) (pc0 : PedersenGens P0) (pc1 : PedersenGens P1) (prm : SRParams P0 P1) (t : CurveTree P0 P1) (i : Spending) (s0 : PState F0) (s1 : PState F1) :=
    prove_spend oc L (sp_coin i) (sp_index i) pc0 pc1 prm t (sp_os i) (sp_es i) s0 s1.
  (** coin.rs 186-223: the circuits of [prove_pour]: both mints, both spends, the balance *)
  Definition pour_circuits (dbg oc : bool) (L : nat) (pc0 : PedersenGens P0) (pc1 : PedersenGens P1) (prm : SRParams P0 P1) (t : CurveTree P0 P1)
    (i0 i1 : Spending) (m0 m1 : Minting) (s0 : PState F0) (s1 : PState F1) : option (PState F0 * PState F1 * (Path P0 P1 * Path P0 P1 * P0 * P0)) :=
    do (s0, (_, mc0, mv0)) <- mint_of dbg pc0 prm m0 s0;
    do (s0, (_, mc1, mv1)) <- mint_of dbg pc0 prm m1 s0;
    do (s0, s1, (path0, iv0)) <- spend_of oc L pc0 pc1 prm t i0 s0 s1;
    do (s0, s1, (path1, iv1)) <- spend_of oc L pc0 pc1 prm t i1 s0 s1;
    Some (p_constrain s0 (balance mv0 mv1 iv0 iv1), s1, (path0, path1, mc0, mc1)).

  (** coin.rs 259-282: signing key, message, randomisation of the signature *)
  Definition sign_input (i : Spending) (k : FC) (msg : bytes) : option (FC * FC) :=
    do sig <- sg_sign sg (sp_sk i) msg k;
    sg_rand_sig sg sig (enc_sc (co_pk_randomness (sp_coin i))).

  (** coin.rs 164-293 [prove_pour]; [rnd0], [rnd1]: randomness of the proofs, [k0], [k1] of
      the signatures; [enc_pour] is [serialize_compressed].  With feature [parallel] the two
      proofs are made concurrently; they are independent. *)
  Definition prove_pour (dbg oc : bool) (L : nat) (pc0 : PedersenGens P0) (pc1 : PedersenGens P1) (prm : SRParams P0 P1) (t : CurveTree P0 P1)
    (enc_pour : Pour P0 P1 C -> bytes) (i0 i1 : Spending) (m0 m1 : Minting) (rnd0 : PRand F0) (rnd1 : PRand F1) (k0 k1 : FC) (s0 : PState F0) (s1 : PState F1) : option (SignedTx FC) :=
    do (s0, s1, (path0, path1, mc0, mc1)) <- pour_circuits dbg oc L pc0 pc1 prm t i0 i1 m0 m1 s0 s1;
    match r1cs_prove E0 dbg rnd0 pc0 (sl_bp (even_p prm)) s0, r1cs_prove E1 dbg rnd1 pc1 (sl_bp (odd_p prm)) s1 with
    | Some (Ok (even_proof, _)), Some (Ok (odd_proof, _)) =>
      let proof_bytes := enc_pour (mkPour even_proof odd_proof path0 path1 (sp_pk i0) (sp_pk i1) mc0 mc1) in
      do sig0 <- sign_input i0 k0 proof_bytes;
      do sig1 <- sign_input i1 k1 proof_bytes;
      Some (mkTx (fst sig0) (snd sig0) (fst sig1) (snd sig1) proof_bytes)
    | _, _ => None
    end.

  (** coin.rs 577-599 [verify_spend_even] *)
  Definition verify_spend_even (L : nat) (prm : SRParams P0 P1) (t : CurveTree P0 P1) (pk : C) (p : Path P0 P1) (t0 : VState P0) : option (VState P0 * Var) :=
    do t0 <- even_gadget E0 enc1 L prm t p t0;
    let '(t0, vars) := v_commit_vec E0 t0 L (pa_selected p) in
    do v1 <- nth_error vars 1; do v0 <- nth_error vars 0;
    Some (v_constrain t0 (lc_sub (lc_var v1) (lc_const (pk_to_scalar pk))), v0).

  (** coin.rs 421-453: the circuit of [even_verification_gadget]; the paths are completed
      with the root *)
  Definition pour_even_circuit (dbg : bool) (L : nat) (prm : SRParams P0 P1) (t : CurveTree P0 P1) (po : Pour P0 P1 C) (p0 p1 : Path P0 P1) (t0 : VState P0) : option (VState P0) :=
    do (t0, mv0) <- verify_mint dbg (po_minted0 po) t0;
    do (t0, mv1) <- verify_mint dbg (po_minted1 po) t0;
    do (t0, iv0) <- verify_spend_even L prm t (po_pk0 po) p0 t0;
    do (t0, iv1) <- verify_spend_even L prm t (po_pk1 po) p1 t0;
    Some (v_constrain t0 (balance mv0 mv1 iv0 iv1)).
  (** coin.rs 461-482, 601-613: the circuit of [odd_verification_gadget] *)
  Definition pour_odd_circuit (L : nat) (prm : SRParams P0 P1) (t : CurveTree P0 P1) (p0 p1 : Path P0 P1) (t1 : VState P1) : option (VState P1) :=
    do t1 <- odd_gadget E1 enc0 L prm t p0 t1;
    odd_gadget E1 enc0 L prm t p1 t1.

  (** [Result::unwrap] *)
  Definition unwrap {A} (r : option (Res A)) : option A := match r with Some (Ok a) => Some a | _ => None end.

  (** coin.rs 490-574 [Pour::verification_gadget]: [ro] is the transcript after
      [Transcript::new(ro_domain)], [rr0], [rr1] the scalars drawn by the verifiers; a proof
      that does not check makes [unwrap] panic (coin.rs 456-457, 485-486) *)
  Definition pour_verify (dbg : bool) (L : nat) (prm : SRParams P0 P1) (t : CurveTree P0 P1) (ro : Transcript) (rr0 : F0) (rr1 : F1) (po : Pour P0 P1 C) : option (VTuple P0 * VTuple P1) :=
    do p0 <- verification_commitments t (po_path0 po);
    do p1 <- verification_commitments t (po_path1 po);
    do t0 <- pour_even_circuit dbg L prm t po p0 p1 (v_new ro);
    do vt0 <- unwrap (v_scalars_and_points E0 dbg rr0 (po_even po) t0);
    do t1 <- pour_odd_circuit L prm t p0 p1 (v_new ro);
    do vt1 <- unwrap (v_scalars_and_points E1 dbg rr1 (po_odd po) t1);
    Some (vt0, vt1).

  (** coin.rs 661-687 [verify_signatures]: the [bool] inside the result of [verify] is
      dropped, only an [Err] panics *)
  Definition verify_signatures (tx : SignedTx FC) (pk0 pk1 : C) : option unit :=
    do _ <- sg_verify sg pk0 (tx_pour tx) (tx_resp0 tx, tx_chal0 tx);
    do _ <- sg_verify sg pk1 (tx_pour tx) (tx_resp1 tx, tx_chal1 tx);
    Some tt.
  (** coin.rs 637-659 [SignedTx::verification_gadget]; [dec_pour] is
      [deserialize_compressed] *)
  Definition tx_verify (dbg : bool) (L : nat) (prm : SRParams P0 P1) (t : CurveTree P0 P1) (ro : Transcript) (rr0 : F0) (rr1 : F1) (dec_pour : bytes -> option (Pour P0 P1 C * bytes)) (tx : SignedTx FC)
    : option (VTuple P0 * VTuple P1) :=
    do (pour, _) <- dec_pour (tx_pour tx);
    do _ <- verify_signatures tx (po_pk0 pour) (po_pk1 pour);
    pour_verify dbg L prm t ro rr0 rr1 pour.
End Coin.
Arguments CoinT F0 FC : clear implicits. Arguments Spending {F0 F1 FC} C. Arguments Minting {F0 FC} C.
