(** * Specification vocabulary for the constraint system

    Small definitions used in theorem statements; they do not mention the
    interpreters' internals. *)

From Verif Require Export CS.
Local Open Scope F_scope.

Section Spec.
  Context {F : Field}.

  (** Value of a linear combination under an assignment of the variables. *)
  Fixpoint lc_val (w : Var -> F) (lc : LC F) : F :=
    match lc with [] => 0 | (v, c) :: r => c * w v + lc_val w r end.

  (** An assignment satisfies a circuit: the constant wire is one, every
      multiplication gate holds and every linear constraint evaluates to zero. *)
  Definition gates_ok (w : Var -> F) : Prop := forall i, w (MulO i) = w (MulL i) * w (MulR i).
  (* vocabulary of specifications and proofs, no code modelled *)
  Definition satisfies (w : Var -> F) (cs : list (LC F)) : Prop :=
    w One = 1 /\ gates_ok w /\ Forall (fun lc => lc_val w lc = 0) cs.

  (** The assignment a prover state holds (0 for variables it does not have). *)
  Definition p_asg (s : PState F) (v : Var) : F :=
    match p_var s v with Some x => x | None => 0 end.

  (** The values of [n] consecutive wires of one kind, e.g. [wires w MulL n]. *)
  Definition wires (w : Var -> F) (mk : nat -> Var) (n : nat) : list F := map (fun i => w (mk i)) (seq 0 n).

  (** Random linear combination of all constraints: sum over q of z^(q+1) times
      the value of constraint q. *)
  Definition batched_constraints (w : Var -> F) (z : F) (cs : list (LC F)) : F :=
    fsum (length cs) (fun q => fpow z (S q) * lc_val w (nth q cs [])).
  (** Random linear combination of all gates: sum over i of y^i (aL_i aR_i - aO_i). *)
  Definition batched_gates (w : Var -> F) (y : F) (n : nat) : F :=
    fsum n (fun i => fpow y i * (w (MulL i) * w (MulR i) - w (MulO i))).

  (** A variable exists in a circuit with [n] gates, [m] commitments and vector
      commitments of the given dimensions. *)
  Definition var_in_range (n m : nat) (dims : list nat) (v : Var) : Prop :=
    match v with
    | MulL i | MulR i | MulO i => (i < n)%nat
    | Committed i => (i < m)%nat
    | VectorCommit j i => (i < nth j dims 0)%nat
    | One => True
    end.

  (** [p] and [p'] are the same gadget, [p] called with all witness values
      present (as by the prover) and [p'] with arbitrary ones (typically [None],
      as by the verifier): both make the same calls and, given the same answers
      from the constraint system, continue alike.  No claim is made once the
      prover's side panics. *)
  Inductive same_gadget (A : Type) : Prog F A -> Prog F A -> Prop :=
  | sg_ret a : same_gadget A (PRet a) (PRet a)
  | sg_panic p' : same_gadget A PPanic p'
  | sg_mul l r k k' : (forall v, same_gadget A (k v) (k' v)) -> same_gadget A (PMul l r k) (PMul l r k')
  | sg_alloc x o k k' : (forall v, same_gadget A (k (Ok v)) (k' (Ok v))) ->
      same_gadget A (PAlloc (Some x) k) (PAlloc o k')
  | sg_allocmul x o k k' : (forall v, same_gadget A (k (Ok v)) (k' (Ok v))) ->
      same_gadget A (PAllocMul (Some x) k) (PAllocMul o k')
  | sg_constrain c k k' : same_gadget A k k' -> same_gadget A (PConstrain c k) (PConstrain c k')
  | sg_append l m k k' : same_gadget A k k' -> same_gadget A (PAppend l m k) (PAppend l m k')
  | sg_metrics k k' : (forall m, same_gadget A (k m) (k' m)) -> same_gadget A (PMetrics k) (PMetrics k')
  | sg_challenge l k k' : (forall c, same_gadget A (k c) (k' c)) -> same_gadget A (PChallenge l k) (PChallenge l k')
  | sg_specify cb cb' k k' : same_gadget (Res unit) cb cb' -> same_gadget A k k' ->
      same_gadget A (PSpecify cb k) (PSpecify cb' k').

  (** A variable that the prover's API has handed out and that can therefore be
      used: in range, and not the right/output wire of a half-allocated
      multiplier. *)
  Definition issued (s : PState F) (v : Var) : Prop :=
    p_var s v <> None /\ (forall i, p_pend s = Some i -> v <> MulR i /\ v <> MulO i).

  (** Gate invariant of the prover's secrets: all gates from number [n] on hold. *)
  Definition gates_from (n : nat) (s : PState F) : Prop :=
    length (p_aR s) = length (p_aL s) /\ length (p_aO s) = length (p_aL s) /\
    (forall i, nth (n + i) (p_aO s) 0 = nth (n + i) (p_aL s) 0 * nth (n + i) (p_aR s) 0) /\
    (forall i, p_pend s = Some i -> (i < length (p_aL s))%nat /\ nth i (p_aR s) 0 = 0).
End Spec.
Arguments same_gadget {F A} _ _.
(** All gates hold. *)
Notation gates_inv := (gates_from 0).

Section Spec2.
  Context {F : Field} {V : VSpace F}.

  (** The commitment [commit_vec] makes: blinding on [B_blinding], values on the
      first generators of party 0. *)
  Definition vec_commitment (pc : PedersenGens V) (g : BPGens V) (b : F) (v : list F) : V :=
    vadd (vsmul b (pcB_blinding pc)) (msm v (nth 0 (G_vec g) [])).

  (** Prover and verifier are in corresponding states. *)
  Record agree (pc : PedersenGens V) (g : BPGens V) (s : PState F) (t : VState V) : Prop := mkAgree {
    ag_tr : p_tr s = v_tr t;
    ag_cs : p_cs s = v_cs t;
    ag_num : length (p_aL s) = v_num t;
    ag_pend : p_pend s = v_pend t;
    ag_def : Forall2 same_gadget (p_def s) (v_def t);
    ag_vb : length (p_v s) = length (p_vb s);
    ag_V : v_V t = zipw (pc_commit pc) (p_v s) (p_vb s);
    ag_vec : v_vec t = map (fun bv => (vec_commitment pc g (fst bv) (snd bv), length (snd bv))) (p_vec s);
    ag_len : Forall (fun bv => (length (snd bv) <= length (nth 0 (G_vec g) []))%nat) (p_vec s) }.

  (** One public call on a [Prover]: any gadget code, [commit], [commit_vec], or
      entering phase two. *)
  Inductive p_call (E : TrEnv V) (pc : PedersenGens V) (g : BPGens V) : PState F -> PState F -> Prop :=
  | pcall_gadget A (p : Prog F A) s s' a : prun E p s = Some (s', a) -> p_call E pc g s s'
  | pcall_commit s v vb : p_call E pc g s (fst (p_commit E pc s v vb))
  | pcall_commit_vec s v vb s' r : p_commit_vec E pc g s v vb = Some (s', r) -> p_call E pc g s s'
  | pcall_phase2 s s' : p_create_randomized E s = Some (Ok s') -> p_call E pc g s s'.
  (* vocabulary of specifications and proofs, no code modelled *)
  Inductive p_reachable (E : TrEnv V) (pc : PedersenGens V) (g : BPGens V) : PState F -> PState F -> Prop :=
  | preach_refl s : p_reachable E pc g s s
  | preach_step s s' s'' : p_reachable E pc g s s' -> p_call E pc g s' s'' -> p_reachable E pc g s s''.

  (** A prover and a verifier session that perform corresponding calls, starting
      from transcripts with the same content: the same gadgets (witnesses present
      on the prover's side only), and for each [commit]/[commit_vec] of the prover
      the corresponding call with the commitment point. *)
  Inductive session (E : TrEnv V) (pc : PedersenGens V) (g : BPGens V) (tr : Transcript)
    : PState F -> VState V -> Prop :=
  | ses_new : session E pc g tr (p_new tr) (v_new tr)
  | ses_gadget A (p p' : Prog F A) s t s' a t' a' : session E pc g tr s t -> same_gadget p p' ->
      prun E p s = Some (s', a) -> vrun E p' t = Some (t', a') -> session E pc g tr s' t'
  | ses_commit s t v vb s' c u : session E pc g tr s t ->
      p_commit E pc s v vb = (s', (c, u)) -> session E pc g tr s' (fst (v_commit E t c))
  | ses_commit_vec s t v vb s' c us : session E pc g tr s t ->
      p_commit_vec E pc g s v vb = Some (s', (c, us)) ->
      session E pc g tr s' (fst (v_commit_vec E t (length v) c)).
End Spec2.
