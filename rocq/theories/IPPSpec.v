(** * Specification vocabulary for the inner-product argument *)

From Verif Require Export IPP.
Local Open Scope F_scope.

(** A tree of transcripts without the points, see [scalars_of]. *)
Inductive stree (F : Type) :=
| SLeaf (a b : F)
| SNode (u1 : F) (t1 : stree F) (u2 : F) (t2 : stree F) (u3 : F) (t3 : stree F) (u4 : F) (t4 : stree F).
Arguments SLeaf {F} a b. Arguments SNode {F} u1 t1 u2 t2 u3 t3 u4 t4.

Section IPPSpec.
  Context {F : Field} {V : VSpace F}.

  (** The statement proved: [P = <a o Gf, G> + <b o Hf, H> + <a, b> Q]. *)
  Definition ipp_statement (Q : V) (Gf Hf : list F) (G H : list V) (a b : list F) : V :=
    vadd (vadd (msm (zipw fmul a Gf) G) (msm (zipw fmul b Hf) H)) (vsmul (ip a b) Q).

  (** [prod_j u_j^(+-1)]: challenge [j] (counted from the first round) appears with
      exponent [+1] if the bit of weight [2^(k-1-j)] of [i] is set and [-1] otherwise. *)
  Fixpoint signed_product (us : list F) (i : nat) : F :=
    match us with
    | [] => 1
    | u :: r => (if Nat.testbit i (length r) then u else inv_or_zero u) * signed_product r i
    end.

  (** A tree of transcripts: every inner node carries the two points of a round and
      four challenges with the continuation for each. *)
  Inductive itree :=
  | Leaf (a b : F)
  | Node (L R : V) (u1 : F) (t1 : itree) (u2 : F) (t2 : itree) (u3 : F) (t3 : itree) (u4 : F) (t4 : itree).

  (** every branch has [k] rounds, and the challenges of a node are non-zero with
      pairwise distinct squares *)
  Fixpoint well_branched (k : nat) (t : itree) : Prop :=
    match k, t with
    | O, Leaf _ _ => True
    | S k', Node _ _ u1 t1 u2 t2 u3 t3 u4 t4 =>
        Forall (fun u => u <> 0) [u1; u2; u3; u4] /\
        NoDup (map (fun u => u * u) [u1; u2; u3; u4]) /\
        well_branched k' t1 /\ well_branched k' t2 /\ well_branched k' t3 /\ well_branched k' t4
    | _, _ => False
    end.

  (** The root-to-leaf transcripts of a tree. *)
  Inductive branch : itree -> list F -> list V -> list V -> F -> F -> Prop :=
  | br_leaf a b : branch (Leaf a b) [] [] [] a b
  | br_1 L R u1 t1 u2 t2 u3 t3 u4 t4 us Ls Rs a b : branch t1 us Ls Rs a b ->
      branch (Node L R u1 t1 u2 t2 u3 t3 u4 t4) (u1 :: us) (L :: Ls) (R :: Rs) a b
  | br_2 L R u1 t1 u2 t2 u3 t3 u4 t4 us Ls Rs a b : branch t2 us Ls Rs a b ->
      branch (Node L R u1 t1 u2 t2 u3 t3 u4 t4) (u2 :: us) (L :: Ls) (R :: Rs) a b
  | br_3 L R u1 t1 u2 t2 u3 t3 u4 t4 us Ls Rs a b : branch t3 us Ls Rs a b ->
      branch (Node L R u1 t1 u2 t2 u3 t3 u4 t4) (u3 :: us) (L :: Ls) (R :: Rs) a b
  | br_4 L R u1 t1 u2 t2 u3 t3 u4 t4 us Ls Rs a b : branch t4 us Ls Rs a b ->
      branch (Node L R u1 t1 u2 t2 u3 t3 u4 t4) (u4 :: us) (L :: Ls) (R :: Rs) a b.

  (** The verifier accepts the transcript [(us, Ls, Rs, a, b)] for [P]: for some
      sponge and initial transcript producing the challenges [us], [verify] returns [Ok]. *)
  Definition accepted (Gf Hf : list F) (P Q : V) (G H : list V)
      (us : list F) (Ls Rs : list V) (a b : F) : Prop :=
    exists (E : TrEnv V) tr tr',
      ipp_challenges E (innerproduct_domain_sep tr (N.of_nat (length G))) Ls Rs = Some (Ok (us, tr')) /\
      ipp_verify E (mkIPP Ls Rs a b) (length G) tr Gf Hf P Q G H = Some (Ok tt).

  (** [a], [b], [c] are the coefficients of a non-trivial linear relation between the
      (scaled) generators and [Q]. *)
  Definition relation_by (Q : V) (G H : list V) (a b : list F) (c : F) : Prop :=
    length a = length G /\ length b = length H /\
    vadd (vadd (msm a G) (msm b H)) (vsmul c Q) = v0 /\
    (Exists (fun x => x <> 0) a \/ Exists (fun x => x <> 0) b \/ c <> 0).
  (* vocabulary of specifications and proofs, no code modelled *)
  Definition nontrivial_relation (Q : V) (G H : list V) : Prop :=
    exists (a b : list F) (c : F), relation_by Q G H a b c.

  (** [Gf o G] *)
  Definition scaled (cs : list F) (G : list V) : list V := zipw vsmul cs G.

  (** The scalars of a tree of transcripts: challenges and final scalars, no points. *)
  Fixpoint scalars_of (t : itree) : stree F :=
    match t with
    | Leaf a b => SLeaf a b
    | Node _ _ u1 t1 u2 t2 u3 t3 u4 t4 => SNode u1 (scalars_of t1) u2 (scalars_of t2) u3 (scalars_of t3) u4 (scalars_of t4)
    end.
End IPPSpec.
Arguments itree {F} V.
