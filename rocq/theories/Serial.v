(** * Model of the encoders and decoders

    bulletproofs/src/r1cs/proof.rs, inner_product_proof.rs, relations/src/curve_tree.rs
    and coin.rs: [CanonicalSerialize] and [CanonicalDeserialize].

    A [Codec] stands for one type's implementation at a fixed compression and
    validation mode.  Codecs of points and scalars come from the curve library and are
    parameters.  Writing to a [Vec] does not fail, so encoders are total; a decoder
    returns [None] for [Err(SerializationError)] and otherwise the value and the bytes
    left in the reader. *)
From Verif Require Export SelRerand R1CS.
Local Open Scope nat_scope.

(** ark_serialize [CanonicalSerialize], [CanonicalDeserialize] of one type:
    [serialize_with_mode], [deserialize_with_mode], [serialized_size] *)
Record Codec (A : Type) := mkCodec { c_enc : A -> bytes; c_dec : bytes -> option (A * bytes); c_size : A -> nat }.
Arguments mkCodec {A}. Arguments c_enc {A}. Arguments c_dec {A}. Arguments c_size {A}.

(** ** Types of the library that the code nests *)

(** ark_serialize for [u8] *)
Definition u8_dec (bs : bytes) : option (N * bytes) := match bs with b :: r => Some (b, r) | [] => None end.

(** value of little-endian bytes (ark_serialize, for [u64]) *)
Fixpoint le_value (bs : bytes) : N := match bs with [] => 0%N | b :: r => (b + 256 * le_value r)%N end.
(** ark_serialize for [u64]: eight bytes, least significant first *)
Definition u64_dec (bs : bytes) : option (N * bytes) :=
  guard (8 <=? length bs) (Some (le_value (firstn 8 bs), skipn 8 bs)).

Section VecCodec.
  Context {A : Type} (c : Codec A).
  (** elements one after the other (also ark_serialize for arrays [[T; M]]) *)
  Definition seq_enc (l : list A) : bytes := concat (map (c_enc c) l).
  (** sizes of the elements added up (ark_serialize) *)
  Definition seq_size (l : list A) : nat := fold_right (fun a n => c_size c a + n) 0 l.
  (** the elements read one after the other (ark_serialize) *)
  Fixpoint seq_dec (n : nat) (bs : bytes) : option (list A * bytes) :=
    match n with
    | O => Some ([], bs)
    | S n' => do (a, bs1) <- c_dec c bs; do (l, bs2) <- seq_dec n' bs1; Some (a :: l, bs2)
    end.
  (** ark_serialize for [Vec<T>]: the number of elements as a [u64], then the elements.
      Not modelled: the allocation for the announced number of elements. *)
  Definition vec_codec : Codec (list A) := mkCodec
    (fun l => le_bytes 8 (N.of_nat (length l)) ++ seq_enc l)
    (fun bs => do (n, bs1) <- u64_dec bs; seq_dec (N.to_nat n) bs1)
    (fun l => 8 + seq_size l).
End VecCodec.

(** [Vec<u8>] *)
Definition u8_codec : Codec N := mkCodec (fun b => [b]) u8_dec (fun _ => 1).
(** [Vec<u8>] (ark_serialize) *)
Definition bytes_codec : Codec bytes := vec_codec u8_codec.

(** ** Proofs *)
Section ProofCodec.
  Context {F : Field} {V : VSpace F} (cP : Codec V) (cS : Codec F).

  (** inner_product_proof.rs 391-404 (decoder), 412-418 (size, also 377-383: twice the
      size of the L list), 424-434 (encoder) *)
  Definition ipp_codec : Codec (IPPProof V) := mkCodec
    (fun p => c_enc (vec_codec cP) (ipp_L p) ++ c_enc (vec_codec cP) (ipp_R p) ++ c_enc cS (ipp_a p) ++ c_enc cS (ipp_b p))
    (fun bs =>
      do (l, bs) <- c_dec (vec_codec cP) bs; do (r, bs) <- c_dec (vec_codec cP) bs;
      do (a, bs) <- c_dec cS bs; do (b, bs) <- c_dec cS bs;
      Some (mkIPP l r a b, bs))
    (fun p => c_size cS (ipp_a p) * 2 + c_size (vec_codec cP) (ipp_L p) * 2).

  (** r1cs/proof.rs 12-13 *)
  Definition ONE_PHASE_COMMITMENTS : N := 0.
  (** r1cs/proof.rs 12-13 *)
  Definition TWO_PHASE_COMMITMENTS : N := 1.
  (** r1cs/proof.rs 59-61 [missing_phase2_commitments] *)
  Definition missing_phase2 (p : R1CSProof V) : bool := (veqb (A_I2 p) v0 && veqb (A_O2 p) v0 && veqb (S2 p) v0)%bool.

  (** r1cs/proof.rs 104-117: the flag and the second-phase commitments *)
  Definition phase2_enc (p : R1CSProof V) : bytes :=
    if missing_phase2 p then [ONE_PHASE_COMMITMENTS]
    else TWO_PHASE_COMMITMENTS :: c_enc cP (A_I2 p) ++ c_enc cP (A_O2 p) ++ c_enc cP (S2 p).
  (** r1cs/proof.rs 143-152: every flag other than 1 means one phase *)
  Definition phase2_dec (bs : bytes) : option (V * V * V * bytes) :=
    do (flag, bs) <- u8_dec bs;
    if (flag =? TWO_PHASE_COMMITMENTS)%N
    then do (a, bs) <- c_dec cP bs; do (b, bs) <- c_dec cP bs; do (s, bs) <- c_dec cP bs; Some (a, b, s, bs)
    else Some (v0, v0, v0, bs).
  (** r1cs/proof.rs 78-93 (size), 95-126 (encoder), 134-170 (decoder) *)
  Definition proof_codec : Codec (R1CSProof V) := mkCodec
    (fun p => c_enc cP (A_I1 p) ++ c_enc cP (A_O1 p) ++ c_enc cP (S1 p) ++ phase2_enc p ++ c_enc (vec_codec cP) (pT p)
              ++ c_enc cS (pt_x p) ++ c_enc cS (pt_x_blinding p) ++ c_enc cS (pe_blinding p) ++ c_enc ipp_codec (pipp p))
    (fun bs =>
      do (ai1, bs) <- c_dec cP bs; do (ao1, bs) <- c_dec cP bs; do (s1, bs) <- c_dec cP bs;
      do (ai2, ao2, s2, bs) <- phase2_dec bs;
      do (T, bs) <- c_dec (vec_codec cP) bs;
      do (tx, bs) <- c_dec cS bs; do (txb, bs) <- c_dec cS bs; do (eb, bs) <- c_dec cS bs;
      do (ipp, bs) <- c_dec ipp_codec bs;
      Some (mkProof ai1 ao1 s1 ai2 ao2 s2 T tx txb eb ipp, bs))
    (fun p => (if missing_phase2 p then 3 else 6) * c_size cP (A_I1 p) + c_size (vec_codec cP) (pT p)
              + 3 * c_size cS (pt_x p) + c_size ipp_codec (pipp p) + 1).
  (** r1cs/proof.rs 63-69 [to_bytes] *)
  Definition proof_to_bytes (p : R1CSProof V) : bytes := c_enc proof_codec p.
  (** r1cs/proof.rs 71-73 [from_bytes]: reads from the front of the slice, what follows is
      not looked at *)
  Definition proof_from_bytes (bs : bytes) : Res (R1CSProof V) :=
    match c_dec proof_codec bs with Some (p, _) => Ok p | None => Err FormatError end.
End ProofCodec.

(** ** Paths *)
Section PathCodec.
  Context {F0 F1 : PField} {P0 : SWCurve F1 F0} {P1 : SWCurve F0 F1} (c0 : Codec P0) (c1 : Codec P1).

  (** curve_tree.rs 177-181 (size), 183-195 (encoder), 235-257 (decoder) *)
  Definition path_codec : Codec (Path P0 P1) := mkCodec
    (fun p => c_enc c0 (pa_selected p) ++ c_enc (vec_codec c1) (pa_odd p) ++ c_enc (vec_codec c0) (pa_even p))
    (fun bs =>
      do (s, bs) <- c_dec c0 bs; do (o, bs) <- c_dec (vec_codec c1) bs; do (e, bs) <- c_dec (vec_codec c0) bs;
      Some (mkPath s o e, bs))
    (fun p => c_size c0 (pa_selected p) + c_size (vec_codec c1) (pa_odd p) + c_size (vec_codec c0) (pa_even p)).

  (** curve_tree.rs 154-166 (encoder of multi-paths; there is no decoder) and 168-172 (size);
      the selected commitments are an array of M points *)
  Definition mpath_enc (p : MPath P0 P1) : bytes :=
    seq_enc c0 (mp_selected p) ++ c_enc (vec_codec c1) (mp_odd p) ++ c_enc (vec_codec c0) (mp_even p).
  (** curve_tree.rs 168-172 *)
  Definition mpath_size (p : MPath P0 P1) : nat :=
    c_size (vec_codec c0) (mp_even p) + c_size (vec_codec c1) (mp_odd p) + seq_size c0 (mp_selected p).
End PathCodec.

(** ** Transactions *)
Section TxCodec.
  Context {F0 F1 : PField} {P0 : SWCurve F1 F0} {P1 : SWCurve F0 F1} {FC : Field} {C : VSpace FC}.
  Variables (c0 : Codec P0) (c1 : Codec P1) (s0 : Codec F0) (s1 : Codec F1) (cC : Codec C) (sC : Codec FC).

  (** coin.rs 296-310 [Pour] *)
  Record Pour := mkPour {
    po_even : R1CSProof P0; po_odd : R1CSProof P1;
    po_path0 : Path P0 P1; po_path1 : Path P0 P1;
    po_pk0 : C; po_pk1 : C;
    po_minted0 : P0; po_minted1 : P0 }.
  (** coin.rs 319-328 (size), 330-348 (encoder), 369-408 (decoder) *)
  Definition pour_codec : Codec Pour := mkCodec
    (fun p => c_enc (proof_codec c0 s0) (po_even p) ++ c_enc (proof_codec c1 s1) (po_odd p)
              ++ c_enc (path_codec c0 c1) (po_path0 p) ++ c_enc (path_codec c0 c1) (po_path1 p)
              ++ c_enc cC (po_pk0 p) ++ c_enc cC (po_pk1 p) ++ c_enc c0 (po_minted0 p) ++ c_enc c0 (po_minted1 p))
    (fun bs =>
      do (e, bs) <- c_dec (proof_codec c0 s0) bs; do (o, bs) <- c_dec (proof_codec c1 s1) bs;
      do (p0, bs) <- c_dec (path_codec c0 c1) bs; do (p1, bs) <- c_dec (path_codec c0 c1) bs;
      do (k0, bs) <- c_dec cC bs; do (k1, bs) <- c_dec cC bs;
      do (m0, bs) <- c_dec c0 bs; do (m1, bs) <- c_dec c0 bs;
      Some (mkPour e o p0 p1 k0 k1 m0 m1, bs))
    (fun p => c_size (proof_codec c0 s0) (po_even p) + c_size (proof_codec c1 s1) (po_odd p)
              + c_size (path_codec c0 c1) (po_path0 p) + c_size (path_codec c0 c1) (po_path1 p)
              + c_size cC (po_pk0 p) + c_size cC (po_pk1 p) + c_size c0 (po_minted0 p) + c_size c0 (po_minted1 p)).

  (** coin.rs 616-627 [SignedTx] *)
  Record SignedTx := mkTx { tx_resp0 : FC; tx_chal0 : FC; tx_resp1 : FC; tx_chal1 : FC; tx_pour : bytes }.
  (** coin.rs 696-702 (size), 704-719 (encoder), 738-766 (decoder) *)
  Definition tx_codec : Codec SignedTx := mkCodec
    (fun t => c_enc sC (tx_resp0 t) ++ c_enc sC (tx_chal0 t) ++ c_enc sC (tx_resp1 t) ++ c_enc sC (tx_chal1 t)
              ++ c_enc bytes_codec (tx_pour t))
    (fun bs =>
      do (r0, bs) <- c_dec sC bs; do (h0, bs) <- c_dec sC bs; do (r1, bs) <- c_dec sC bs; do (h1, bs) <- c_dec sC bs;
      do (p, bs) <- c_dec bytes_codec bs;
      Some (mkTx r0 h0 r1 h1 p, bs))
    (fun t => c_size bytes_codec (tx_pour t) + c_size sC (tx_resp0 t) + c_size sC (tx_chal0 t) + c_size sC (tx_resp1 t) + c_size sC (tx_chal1 t)).
End TxCodec.
Arguments Pour {F0 F1} P0 P1 {FC} C. Arguments SignedTx FC : clear implicits.
