(** * Model of the R1CS constraint-system front end

    bulletproofs/src/r1cs/linear_combination.rs, constraint_system.rs and the
    [ConstraintSystem] implementations of prover.rs and verifier.rs. *)

From Verif Require Export Generators.
Local Open Scope F_scope.

(** linear_combination.rs 9-23 [Variable] *)
Inductive Var :=
| VectorCommit (j i : nat)
| Committed (i : nat)
| MulL (i : nat)
| MulR (i : nat)
| MulO (i : nat)
| One.

(** constraint_system metrics: r1cs/metrics.rs [Metrics] *)
Record Metrics := mkMetrics {
  multipliers : nat; n_constraints : nat; phase_one_constraints : nat; phase_two_constraints : nat }.

Section LC.
  Context {F : Field}.

  (** linear_combination.rs 127-132 [LinearCombination]: list of terms *)
  Definition LC := list (Var * F).

  (** linear_combination.rs 25-31 [From<Variable>] *)
  Definition lc_var (v : Var) : LC := [(v, 1)].
  (** linear_combination.rs 41-53 [From<F>], [constant] *)
  Definition lc_const (c : F) : LC := [(One, c)].
  (** linear_combination.rs 134-138 [Default] *)
  Definition lc_zero : LC := [].
  (** linear_combination.rs 164-171 [Add] *)
  Definition lc_add (a b : LC) : LC := a ++ b.
  (** linear_combination.rs 173-185 [Sub] *)
  Definition lc_sub (a b : LC) : LC := a ++ map (fun '(v, c) => (v, - c)) b.
  (** linear_combination.rs 211-220 [Neg] *)
  Definition lc_neg (a : LC) : LC := map (fun '(v, c) => (v, - c)) a.
  (** linear_combination.rs 200-209 [scalar_mul], 222-232 [Mul] *)
  Definition lc_mul (a : LC) (s : F) : LC := map (fun '(v, c) => (v, c * s)) a.
  (** linear_combination.rs 81-89 [Mul for Variable] *)
  Definition var_mul (v : Var) (s : F) : LC := [(v, s)].

  (** ** Gadgets as programs over the [ConstraintSystem] interface

      constraint_system.rs: a gadget is a Rust function that talks to the
      constraint system only through this interface.  It is modelled by its
      interaction tree: one constructor per trait method, the continuation
      receiving the method's return value.  [PPanic] is a Rust panic inside the
      gadget, [PAppend] is [cs.transcript().append_message]. [PChallenge] is
      available to randomised callbacks only in Rust; the model allows it
      everywhere (more programs than Rust has). *)
  Inductive Prog (A : Type) : Type :=
  | PRet (a : A)
  | PPanic
  | PMul (l r : LC) (k : Var * Var * Var -> Prog A)
  | PAlloc (a : option F) (k : Res Var -> Prog A)
  | PAllocMul (a : option (F * F)) (k : Res (Var * Var * Var) -> Prog A)
  | PConstrain (c : LC) (k : Prog A)
  | PAppend (label : string) (m : bytes) (k : Prog A)
  | PMetrics (k : Metrics -> Prog A)
  | PChallenge (label : string) (k : F -> Prog A)
  | PSpecify (cb : Prog (Res unit)) (k : Prog A).

  Arguments PRet {A}. Arguments PPanic {A}. Arguments PMul {A}. Arguments PAlloc {A}.
  Arguments PAllocMul {A}. Arguments PConstrain {A}. Arguments PAppend {A}.
  Arguments PMetrics {A}. Arguments PChallenge {A}. Arguments PSpecify {A}.

  (** sequencing of gadget code *)
  Fixpoint pbind {A B} (p : Prog A) (f : A -> Prog B) : Prog B :=
    match p with
    | PRet a => f a
    | PPanic => PPanic
    | PMul l r k => PMul l r (fun v => pbind (k v) f)
    | PAlloc a k => PAlloc a (fun v => pbind (k v) f)
    | PAllocMul a k => PAllocMul a (fun v => pbind (k v) f)
    | PConstrain c k => PConstrain c (pbind k f)
    | PAppend l m k => PAppend l m (pbind k f)
    | PMetrics k => PMetrics (fun m => pbind (k m) f)
    | PChallenge l k => PChallenge l (fun c => pbind (k c) f)
    | PSpecify cb k => PSpecify cb (pbind k f)
    end.

  (** ** Prover side *)

  (** prover.rs 32-68 [Prover], [Secrets] (generators are passed to the methods
      that use them). *)
  Record PState := mkP {
    p_tr : Transcript;
    p_cs : list LC;
    p_aL : list F; p_aR : list F; p_aO : list F;
    p_v : list F; p_vb : list F;
    p_vec : list (F * list F);
    p_def : list (Prog (Res unit));
    p_pend : option nat }.

  (** field updates of [Prover] (no code modelled) *)
  Definition p_set_tr s t := mkP t (p_cs s) (p_aL s) (p_aR s) (p_aO s) (p_v s) (p_vb s) (p_vec s) (p_def s) (p_pend s).
  (** as above (no code modelled) *)
  Definition p_set_pend s d := mkP (p_tr s) (p_cs s) (p_aL s) (p_aR s) (p_aO s) (p_v s) (p_vb s) (p_vec s) (p_def s) d.
  (** as above (no code modelled) *)
  Definition p_set_def s d := mkP (p_tr s) (p_cs s) (p_aL s) (p_aR s) (p_aO s) (p_v s) (p_vb s) (p_vec s) d (p_pend s).
  (** as above (no code modelled) *)
  Definition p_set_wires s l r o := mkP (p_tr s) (p_cs s) l r o (p_v s) (p_vb s) (p_vec s) (p_def s) (p_pend s).

  (** prover.rs 282-300 [Prover::new] *)
  Definition p_new (t : Transcript) : PState :=
    mkP (r1cs_domain_sep t) [] [] [] [] [] [] [] [] None.

  (** prover.rs 447-455: value of a variable; indexing panics when out of range *)
  Definition p_var (s : PState) (v : Var) : option F :=
    match v with
    | VectorCommit j i => match nth_error (p_vec s) j with Some (_, l) => nth_error l i | None => None end
    | MulL i => nth_error (p_aL s) i
    | MulR i => nth_error (p_aR s) i
    | MulO i => nth_error (p_aO s) i
    | Committed i => nth_error (p_v s) i
    | One => Some 1
    end.
  (** prover.rs 443-458 [eval] *)
  Definition p_eval (s : PState) (lc : LC) : option F :=
    fold_right (fun '(v, c) acc => do x <- p_var s v; do a <- acc; Some (c * x + a)) (Some 0) lc.

  (** prover.rs 180-184 [constrain] *)
  Definition p_constrain (s : PState) (lc : LC) : PState :=
    mkP (p_tr s) (p_cs s ++ [lc]) (p_aL s) (p_aR s) (p_aO s) (p_v s) (p_vb s) (p_vec s) (p_def s) (p_pend s).

  (** prover.rs 89-119 [multiply] *)
  Definition p_multiply (s : PState) (left right : LC) : option (PState * (Var * Var * Var)) :=
    do l <- p_eval s left;
    do r <- p_eval s right;
    let o := l * r in
    let l_var := MulL (length (p_aL s)) in
    let r_var := MulR (length (p_aR s)) in
    let o_var := MulO (length (p_aO s)) in
    let s1 := p_set_wires s (p_aL s ++ [l]) (p_aR s ++ [r]) (p_aO s ++ [o]) in
    let s2 := p_constrain s1 (left ++ [(l_var, - (1))]) in
    let s3 := p_constrain s2 (right ++ [(r_var, - (1))]) in
    Some (s3, (l_var, r_var, o_var)).

  (** prover.rs 121-143 [allocate] *)
  Definition p_allocate (s : PState) (a : option F) : option (PState * Res Var) :=
    match a with
    | None => Some (s, Err MissingAssignment)
    | Some x =>
      match p_pend s with
      | None =>
        let i := length (p_aL s) in
        Some (p_set_wires (p_set_pend s (Some i)) (p_aL s ++ [x]) (p_aR s ++ [0]) (p_aO s ++ [0]), Ok (MulL i))
      | Some i =>
        let s1 := p_set_pend s None in
        match nth_error (p_aR s) i, nth_error (p_aL s) i, nth_error (p_aO s) i with
        | Some _, Some l, Some _ =>
          Some (p_set_wires s1 (p_aL s) (upd (p_aR s) i (fun _ => x)) (upd (p_aO s) i (fun _ => l * x)), Ok (MulR i))
        | _, _, _ => None
        end
      end
    end.

  (** prover.rs 145-169 [allocate_multiplier] *)
  Definition p_allocate_multiplier (s : PState) (a : option (F * F)) : PState * Res (Var * Var * Var) :=
    match a with
    | None => (s, Err MissingAssignment)
    | Some (l, r) =>
      (p_set_wires s (p_aL s ++ [l]) (p_aR s ++ [r]) (p_aO s ++ [l * r]),
       Ok (MulL (length (p_aL s)), MulR (length (p_aR s)), MulO (length (p_aO s))))
    end.

  (** prover.rs 171-178 [metrics] *)
  Definition p_metrics (s : PState) : Metrics :=
    mkMetrics (length (p_aL s)) (length (p_cs s) + length (p_def s)) (length (p_cs s)) (length (p_def s)).

  (** prover.rs 489-495 [size] *)
  Definition p_size (s : PState) : nat :=
    fold_left (fun n bv => Nat.max n (length (snd bv))) (p_vec s) (length (p_aL s)).
End LC.
Arguments LC : clear implicits.
Arguments Prog : clear implicits.
Arguments PState : clear implicits.
Arguments PRet {F A}. Arguments PPanic {F A}. Arguments PMul {F A}. Arguments PAlloc {F A}.
Arguments PAllocMul {F A}. Arguments PConstrain {F A}. Arguments PAppend {F A}.
Arguments PMetrics {F A}. Arguments PChallenge {F A}. Arguments PSpecify {F A}.

Declare Scope prog_scope.
Delimit Scope prog_scope with prog.
Notation "x <- p ;; k" := (pbind p (fun x => k)) (at level 61, p at next level, right associativity) : prog_scope.
Notation "' x <- p ;; k" := (pbind p (fun x => k)) (at level 61, x pattern, p at next level, right associativity) : prog_scope.

Section CS.
  Context {F : Field} {V : VSpace F}.
  Variable E : TrEnv V.

  (** Running gadget code against the prover; [None] = panic. *)
  Fixpoint prun {A} (p : Prog F A) (s : PState F) : option (PState F * A) :=
    match p with
    | PRet a => Some (s, a)
    | PPanic => None
    | PMul l r k => match p_multiply s l r with Some (s', v) => prun (k v) s' | None => None end
    | PAlloc a k => match p_allocate s a with Some (s', v) => prun (k v) s' | None => None end
    | PAllocMul a k => let '(s', v) := p_allocate_multiplier s a in prun (k v) s'
    | PConstrain c k => prun k (p_constrain s c)
    | PAppend l m k => prun k (p_set_tr s (append_message (p_tr s) l m))
    | PMetrics k => prun (k (p_metrics s)) s
    (* prover.rs 244-254 [challenge_scalar] *)
    | PChallenge l k => match challenge_scalar E (p_tr s) l with
                        | Some (c, t) => prun (k c) (p_set_tr s t)
                        | None => None
                        end
    (* prover.rs 192-198 [specify_randomized_constraints] *)
    | PSpecify cb k => prun k (p_set_def s (p_def s ++ [cb]))
    end.

  (** prover.rs 319-333 [commit] *)
  Definition p_commit (pc : PedersenGens V) (s : PState F) (v vb : F) : PState F * (V * Var) :=
    let c := pc_commit pc v vb in
    (mkP (append_point E (p_tr s) "V" c) (p_cs s) (p_aL s) (p_aR s) (p_aO s)
         (p_v s ++ [v]) (p_vb s ++ [vb]) (p_vec s) (p_def s) (p_pend s),
     (c, Committed (length (p_v s)))).

  (** prover.rs 335-374 [commit_vec]: [gens.G(n)] takes at most the capacity, and
      the [assert_eq!] panics when there are fewer generators than values. *)
  Definition p_commit_vec (pc : PedersenGens V) (g : BPGens V) (s : PState F) (v : list F) (vb : F)
    : option (PState F * (V * list Var)) :=
    do G <- share_G g 0 (length v);
    let generators := pcB_blinding pc :: G in
    let scalars := vb :: v in
    guard (Nat.eqb (length generators) (length scalars))
      (let comm := msm scalars generators in
       let idx := length (p_vec s) in
       Some (mkP (append_point E (p_tr s) "V" comm) (p_cs s) (p_aL s) (p_aR s) (p_aO s)
                 (p_v s) (p_vb s) (p_vec s ++ [(vb, v)]) (p_def s) (p_pend s),
             (comm, map (VectorCommit idx) (seq 0 (length v))))).

  (** ** Verifier side *)

  (** verifier.rs 31-56 [Verifier] *)
  Record VState := mkV {
    v_tr : Transcript;
    v_cs : list (LC F);
    v_vec : list (V * nat);
    v_num : nat;
    v_V : list V;
    v_def : list (Prog F (Res unit));
    v_pend : option nat }.

  (** field updates of [Verifier] (no code modelled) *)
  Definition v_set_tr s t := mkV t (v_cs s) (v_vec s) (v_num s) (v_V s) (v_def s) (v_pend s).
  (** as above (no code modelled) *)
  Definition v_set_def s d := mkV (v_tr s) (v_cs s) (v_vec s) (v_num s) (v_V s) d (v_pend s).
  (** as above (no code modelled) *)
  Definition v_set_num s n d := mkV (v_tr s) (v_cs s) (v_vec s) n (v_V s) (v_def s) d.

  (** verifier.rs 258-270 [Verifier::new] *)
  Definition v_new (t : Transcript) : VState := mkV (r1cs_domain_sep t) [] [] 0 [] [] None.
  (** verifier.rs 150-155 [constrain] *)
  Definition v_constrain (s : VState) (lc : LC F) : VState :=
    mkV (v_tr s) (v_cs s ++ [lc]) (v_vec s) (v_num s) (v_V s) (v_def s) (v_pend s).
  (** verifier.rs 75-99 [multiply] *)
  Definition v_multiply (s : VState) (left right : LC F) : VState * (Var * Var * Var) :=
    let var := v_num s in
    let s0 := v_set_num s (S var) (v_pend s) in
    let s1 := v_constrain s0 (left ++ [(MulL var, - (1))]) in
    let s2 := v_constrain s1 (right ++ [(MulR var, - (1))]) in
    (s2, (MulL var, MulR var, MulO var)).
  (** verifier.rs 101-117 [allocate] *)
  Definition v_allocate (s : VState) (_ : option F) : VState * Res Var :=
    match v_pend s with
    | None => (v_set_num s (S (v_num s)) (Some (v_num s)), Ok (MulL (v_num s)))
    | Some i => (v_set_num s (v_num s) None, Ok (MulR i))
    end.
  (** verifier.rs 119-139 [allocate_multiplier] *)
  Definition v_allocate_multiplier (s : VState) (_ : option (F * F)) : VState * Res (Var * Var * Var) :=
    (v_set_num s (S (v_num s)) (v_pend s), Ok (MulL (v_num s), MulR (v_num s), MulO (v_num s))).
  (** verifier.rs 141-148 [metrics] *)
  Definition v_metrics (s : VState) : Metrics :=
    mkMetrics (v_num s) (length (v_cs s) + length (v_def s)) (length (v_cs s)) (length (v_def s)).
  (** verifier.rs 272-278 [size] *)
  Definition v_size (s : VState) : nat :=
    fold_left (fun n cd => Nat.max (snd cd) n) (v_vec s) (v_num s).

  (** Running gadget code against the verifier. *)
  Fixpoint vrun {A} (p : Prog F A) (s : VState) : option (VState * A) :=
    match p with
    | PRet a => Some (s, a)
    | PPanic => None
    | PMul l r k => let '(s', v) := v_multiply s l r in vrun (k v) s'
    | PAlloc a k => let '(s', v) := v_allocate s a in vrun (k v) s'
    | PAllocMul a k => let '(s', v) := v_allocate_multiplier s a in vrun (k v) s'
    | PConstrain c k => vrun k (v_constrain s c)
    | PAppend l m k => vrun k (v_set_tr s (append_message (v_tr s) l m))
    | PMetrics k => vrun (k (v_metrics s)) s
    (* verifier.rs 221-231 [challenge_scalar] *)
    | PChallenge l k => match challenge_scalar E (v_tr s) l with
                        | Some (c, t) => vrun (k c) (v_set_tr s t)
                        | None => None
                        end
    (* verifier.rs 163-169 [specify_randomized_constraints] *)
    | PSpecify cb k => vrun k (v_set_def s (v_def s ++ [cb]))
    end.

  (** verifier.rs 294-302 [commit] *)
  Definition v_commit (s : VState) (c : V) : VState * Var :=
    (mkV (append_point E (v_tr s) "V" c) (v_cs s) (v_vec s) (v_num s) (v_V s ++ [c]) (v_def s) (v_pend s),
     Committed (length (v_V s))).
  (** verifier.rs 304-318 [commit_vec] *)
  Definition v_commit_vec (s : VState) (dim : nat) (c : V) : VState * list Var :=
    (mkV (append_point E (v_tr s) "V" c) (v_cs s) (v_vec s ++ [(c, dim)]) (v_num s) (v_V s) (v_def s) (v_pend s),
     map (VectorCommit (length (v_vec s))) (seq 0 dim)).

  (** ** Flattening *)

  (** the results of [flattened_constraints]: prover.rs 387-440, verifier.rs 335-390 *)
  Record Flat := mkFlat {
    wL : list F; wR : list F; wO : list F; wV : list F; wVC : list (list F); wc : F }.

  (** indexed update [w[i] += ...], which panics out of bounds: prover.rs 412-436, verifier.rs 362-386 *)
  Definition upd_opt {A} (l : list A) (i : nat) (f : A -> A) : option (list A) :=
    if Nat.ltb i (length l) then Some (upd l i f) else None.

  (** prover.rs 414-434 / verifier.rs 362-384: body of the inner loop; indices
      panic when out of range.  [with_c] is [true] for the verifier, which alone
      handles constants (verifier.rs 381-383, prover.rs 431-433). *)
  Definition flat_term (with_c : bool) (exp_z : F) (fl : Flat) (t : Var * F) : option Flat :=
    let '(var, coeff) := t in
    let d := exp_z * coeff in
    match var with
    | MulL i => do w <- upd_opt (wL fl) i (fun x => x + d); Some (mkFlat w (wR fl) (wO fl) (wV fl) (wVC fl) (wc fl))
    | MulR i => do w <- upd_opt (wR fl) i (fun x => x + d); Some (mkFlat (wL fl) w (wO fl) (wV fl) (wVC fl) (wc fl))
    | MulO i => do w <- upd_opt (wO fl) i (fun x => x + d); Some (mkFlat (wL fl) (wR fl) w (wV fl) (wVC fl) (wc fl))
    | Committed i => do w <- upd_opt (wV fl) i (fun x => x - d); Some (mkFlat (wL fl) (wR fl) (wO fl) w (wVC fl) (wc fl))
    | VectorCommit j i =>
      do row <- nth_error (wVC fl) j;
      do row' <- upd_opt row i (fun x => x + d);
      Some (mkFlat (wL fl) (wR fl) (wO fl) (wV fl) (upd (wVC fl) j (fun _ => row')) (wc fl))
    | One => Some (if with_c then mkFlat (wL fl) (wR fl) (wO fl) (wV fl) (wVC fl) (wc fl - d) else fl)
    end.
  (** prover.rs 412-437 / verifier.rs 360-387: loop over constraints, [exp_z]
      starting at [z]. *)
  Fixpoint flat_terms (with_c : bool) (exp_z : F) (ts : LC F) (fl : Flat) : option Flat :=
    match ts with
    | [] => Some fl
    | t :: r => do fl' <- flat_term with_c exp_z fl t; flat_terms with_c exp_z r fl'
    end.
  (** prover.rs 410-437, verifier.rs 360-387: the outer loop over the constraints *)
  Fixpoint flat_loop (with_c : bool) (z exp_z : F) (cs : list (LC F)) (fl : Flat) : option Flat :=
    match cs with
    | [] => Some fl
    | lc :: r => do fl' <- flat_terms with_c exp_z lc fl; flat_loop with_c z (exp_z * z) r fl'
    end.
  (** the zero vectors before the loop: prover.rs 400-408, verifier.rs 349-358 *)
  Definition flat_init (n m : nat) (dims : list nat) : Flat :=
    mkFlat (zeros n) (zeros n) (zeros n) (zeros m) (map (fun d => zeros d) dims) 0.

  (** prover.rs 387-440 [flattened_constraints] ([wc] stays at its initial 0 and is not read) *)
  Definition p_flatten (s : PState F) (z : F) : option Flat :=
    flat_loop false z z (p_cs s)
      (flat_init (length (p_aL s)) (length (p_v s)) (map (fun bv => length (snd bv)) (p_vec s))).
  (** verifier.rs 335-390 [flattened_constraints] *)
  Definition v_flatten (s : VState) (z : F) : option Flat :=
    flat_loop true z z (v_cs s) (flat_init (v_num s) (length (v_V s)) (map snd (v_vec s))).

  (** ** Phase two *)

  (** prover.rs 462-481: the callbacks one after the other, the first error is returned *)
  Fixpoint p_run_all (cbs : list (Prog F (Res unit))) (s : PState F) : option (Res (PState F)) :=
    match cbs with
    | [] => Some (Ok s)
    | cb :: r => match prun cb s with
                 | None => None
                 | Some (s', Ok _) => p_run_all r s'
                 | Some (_, Err e) => Some (Err e)
                 end
    end.
  (** prover.rs 462-481 [create_randomized_constraints] *)
  Definition p_create_randomized (s : PState F) : option (Res (PState F)) :=
    let s := p_set_pend s None in
    match p_def s with
    | [] => Some (Ok (p_set_tr s (r1cs_1phase_domain_sep (p_tr s))))
    | cbs => p_run_all cbs (p_set_def (p_set_tr s (r1cs_2phase_domain_sep (p_tr s))) [])
    end.

  (** verifier.rs 394-413: the same for the verifier *)
  Fixpoint v_run_all (cbs : list (Prog F (Res unit))) (s : VState) : option (Res VState) :=
    match cbs with
    | [] => Some (Ok s)
    | cb :: r => match vrun cb s with
                 | None => None
                 | Some (s', Ok _) => v_run_all r s'
                 | Some (_, Err e) => Some (Err e)
                 end
    end.
  (** verifier.rs 394-413 [create_randomized_constraints] *)
  Definition v_create_randomized (s : VState) : option (Res VState) :=
    let s := v_set_num s (v_num s) None in
    match v_def s with
    | [] => Some (Ok (v_set_tr s (r1cs_1phase_domain_sep (v_tr s))))
    | cbs => v_run_all cbs (v_set_def (v_set_tr s (r1cs_2phase_domain_sep (v_tr s))) [])
    end.
End CS.
Arguments VState {F} V.
Arguments Flat F : clear implicits.
