(** * Model of the curve-level gadgets

    relations/src/curve.rs (helpers), rerandomize.rs and
    single_level_select_and_rerandomize.rs. *)
From Verif Require Export Gadgets Curve.
Local Open Scope F_scope.

(** [unwrap] inside a gadget *)
Definition punwrap {F : Field} {A B} (o : option A) (k : A -> Prog F B) : Prog F B :=
  match o with Some a => k a | None => PPanic end.
(** ark_ff [Div]: panics on a zero divisor *)
Definition fdiv_opt {F : Field} (x y : F) : option F := option_map (fmul x) (finv_opt y).

Section CG.
  (** [F] is the field of the circuit and of the coordinates, [S] the scalar field
      of the curve. *)
  Context {F : Field} {S : PField} {C : SWCurve F S}.

  (** curve.rs 26-33 [PointRepresentation] *)
  Record PRep := mkPRep { pr_x : LC F; pr_y : LC F; pr_w : option C }.

  (** curve.rs 37-74 [incomplete_curve_addition_helper] *)
  Definition incomplete_helper (l r : PRep) : Prog F PRep :=
    let go (xo yo delta : option F) (out : option C) :=
      palloc xo (fun x_out => palloc yo (fun y_out =>
        pbind (incomplete_curve_addition (mkCA (pr_x l) (pr_y l) (pr_x r) (pr_y r) (lc_var x_out) (lc_var y_out) delta))
              (fun _ => PRet (mkPRep (lc_var x_out) (lc_var y_out) out)))) in
    match pr_w l, pr_w r with
    | Some P, Some Q =>
      let out := vadd P Q in
      punwrap (coords P) (fun '(xl, yl) => punwrap (coords Q) (fun '(xr, yr) =>
      punwrap (fdiv_opt (yr - yl) (xr - xl)) (fun delta =>
      punwrap (coords out) (fun '(xo, yo) => go (Some xo) (Some yo) (Some delta) (Some out)))))
    | _, _ => go None None None None
    end.
  (** curve.rs 79-119 [checked_curve_addition_helper] *)
  Definition checked_helper (l r : PRep) : Prog F PRep :=
    let go (xo yo delta inv : option F) (out : option C) :=
      palloc xo (fun x_out => palloc yo (fun y_out =>
        pbind (checked_curve_addition (mkCA (pr_x l) (pr_y l) (pr_x r) (pr_y r) (lc_var x_out) (lc_var y_out) delta) inv)
              (fun _ => PRet (mkPRep (lc_var x_out) (lc_var y_out) out)))) in
    match pr_w l, pr_w r with
    | Some P, Some Q =>
      let out := vadd P Q in
      punwrap (coords P) (fun '(xl, yl) => punwrap (coords Q) (fun '(xr, yr) =>
      punwrap (fdiv_opt (yr - yl) (xr - xl)) (fun delta =>
      punwrap (fdiv_opt 1 (xl - xr)) (fun inv =>
      punwrap (coords out) (fun '(xo, yo) => go (Some xo) (Some yo) (Some delta) (Some inv) (Some out))))))
    | _, _ => go None None None None None
    end.

  (** ** rerandomize.rs *)

  (** rerandomize.rs 14-15, 63-64: number of windows *)
  Definition windows : nat := (modulus_bits S / 3 + 1)%nat.
  (** rerandomize.rs 25-28: 2^k in the scalar field *)
  Definition two_pow (k : nat) : S := fpow (fN 2) k.
  (** rerandomize.rs 36-44: the eight entries of one table (two rows of eight);
      [unwrap] panics if an entry is the point at infinity *)
  Definition table_entry (h : C) (j_term right_term : S) (j : nat) : option (F * F) :=
    coords (vsmul (fN (N.of_nat j) * j_term + right_term) h).
  (** collects the results of calls that may panic (no code modelled) *)
  Fixpoint all_some {A} (l : list (option A)) : option (list A) :=
    match l with
    | [] => Some []
    | o :: r => do a <- o; do r' <- all_some r; Some (a :: r')
    end.
  (** rerandomize.rs 36-44: the two rows of one table *)
  Definition one_table (h : C) (j_term right_term : S) : option (list (list F)) :=
    do es <- all_some (map (table_entry h j_term right_term) (seq 0 8));
    Some [map fst es; map snd es].
  (** rerandomize.rs 20-46: the loop; [k] iterations remain, the next is [i] *)
  Fixpoint tables_loop (h : C) (m k i : nat) (mth_right : S) : option (list (list (list F))) :=
    match k with
    | O => Some []
    | Datatypes.S k' =>
      let j_term := two_pow (3 * (i - 1)) in
      let '(right_term, mth') := if (i <? m)%nat then (two_pow (3 * i), mth_right + two_pow (3 * i)) else (- mth_right, mth_right) in
      do t <- one_table h j_term right_term;
      do ts <- tables_loop h m k' (i + 1) mth';
      Some (t :: ts)
    end.
  (** rerandomize.rs 13-48 [build_tables] *)
  Definition build_tables (h : C) : option (list (list (list F))) := tables_loop h windows windows 1 0.

  (** rerandomize.rs 84-91: window index; bits beyond the bit size read as 0 *)
  Definition window_index (lambda : nat) (r : N) (i : nat) : nat :=
    let bi := ((i - 1) * 3)%nat in
    let b k := ((k <? lambda)%nat && N.testbit r (N.of_nat k))%bool in
    ((if b bi then 1 else 0) + (if b (bi + 1) then 2 else 0) + (if b (bi + 2) then 4 else 0))%nat.

  (** The witness values of one iteration: index, inverse, slope, new accumulator
      and its coordinates. *)
  Record RWit := mkRWit { rw_index : option nat; rw_inv : option F; rw_delta : option F; rw_x : option F; rw_y : option F }.
  (** rerandomize.rs 81-129: the tuple computed before the constraints, and the new
      accumulator ([None]: a panic) *)
  Definition rerand_witness (m : nat) (table : list (list F)) (r : option N) (i : nat) (acc : C) : option (RWit * C) :=
    match r with
    | None => Some (mkRWit None None None None None, acc)
    | Some r =>
      let index := window_index (modulus_bits S) r i in
      let xr := row_at (nth 0 table []) index in
      let yr := row_at (nth 1 table []) index in
      do l <- (if (i =? 1)%nat then Some (0, 0) else coords acc);
      let '(xl, yl) := l in
      do delta <- (if (i =? 1)%nat then Some None else option_map Some (fdiv_opt (yr - yl) (xr - xl)));
      do inv <- (if (i =? m)%nat then option_map Some (fdiv_opt 1 (xl - xr)) else Some None);
      do e <- of_coords xr yr;
      let acc' := vadd acc e in
      do xy <- coords acc';
      Some (mkRWit (Some index) inv delta (Some (fst xy)) (Some (snd xy)), acc')
    end.

  (** rerandomize.rs 131-157: the constraints of iteration [i], given the witness
      values; [next] is what follows, with the variables of the new accumulator.

      [tied] is not in the code: with [tied = true] the iteration i = 1 additionally
      constrains the accumulator to be the looked-up point.  The code is
      [tied = false]: nothing constrains the accumulator of the first iteration. *)
  Definition rerand_iter {A} (tied : bool) (m : nat) (table : list (list F)) (i : nat) (wit : RWit) (ax ay : LC F) (next : Var * Var * Var -> Var -> Var -> Prog F A) : Prog F A :=
    pbind (lookup_bits table (rw_index wit)) (fun res =>
    match res with
    | Ok (bs, [x_table; y_table]) =>
      palloc (rw_x wit) (fun xv => palloc (rw_y wit) (fun yv =>
      if (1 <? i)%nat then
        let prms := mkCA ax ay x_table y_table (lc_var xv) (lc_var yv) (rw_delta wit) in
        if (i =? m)%nat then pbind (checked_curve_addition prms (rw_inv wit)) (fun _ => next bs xv yv)
        else pbind (incomplete_curve_addition prms) (fun _ => next bs xv yv)
      else if tied then PConstrain (lc_sub x_table (lc_var xv)) (PConstrain (lc_sub y_table (lc_var yv)) (next bs xv yv))
      else next bs xv yv))
    | _ => PPanic
    end).
  (** rerandomize.rs 78-158: the loop; [k] iterations remain, the next is [i].  The
      list of bit variables is collected only to state properties. *)
  Fixpoint rerand_loop (tied : bool) (m : nat) (tables : list (list (list F))) (r : option N) (k i : nat) (acc : C) (ax ay : LC F)
    (bits : list (Var * Var * Var)) : Prog F (C * LC F * LC F * list (Var * Var * Var)) :=
    match k with
    | O => PRet (acc, ax, ay, bits)
    | Datatypes.S k' =>
      punwrap (nth_error tables (i - 1)) (fun table =>
      punwrap (rerand_witness m table r i acc) (fun '(wit, acc') =>
      rerand_iter tied m table i wit ax ay (fun bs xv yv => rerand_loop tied m tables r k' (i + 1) acc' (lc_var xv) (lc_var yv) (bits ++ [bs]))))
    end.
  (** rerandomize.rs 161-181: the final addition *)
  Definition rerand_final (commitment : PRep) (x_tilde y_tilde : LC F) (acc : C) (ax ay : LC F) : Prog F unit :=
    let go (delta inv : option F) :=
      checked_curve_addition (mkCA (pr_x commitment) (pr_y commitment) ax ay x_tilde y_tilde delta) inv in
    match pr_w commitment with
    | Some P =>
      punwrap (coords P) (fun '(xl, yl) => punwrap (coords acc) (fun '(xr, yr) =>
      punwrap (fdiv_opt (yr - yl) (xr - xl)) (fun delta =>
      punwrap (fdiv_opt 1 (xl - xr)) (fun inv => go (Some delta) (Some inv)))))
    | None => go None None
    end.
  (** rerandomize.rs 50-182 [re_randomize] is [re_randomize_gen false].  [A0] is the
      initial accumulator, [v0] in the code (rerandomize.rs 74): other values are
      used to describe dishonest provers; the circuit does not depend on it.  The
      result lists the bit variables of the windows (dropped in Rust). *)
  Definition re_randomize_from (tied : bool) (A0 : C) (tables : list (list (list F))) (commitment : PRep) (x_tilde y_tilde : LC F) (randomness : option S) : Prog F (list (Var * Var * Var)) :=
    pbind (rerand_loop tied windows tables (option_map pf_repr randomness) windows 1 A0 (lc_var One) (lc_var One) []) (fun '(acc, ax, ay, bits) =>
    pbind (rerand_final commitment x_tilde y_tilde acc ax ay) (fun _ => PRet bits)).
  (** rerandomize.rs 50-182 with the accumulator of line 74 *)
  Definition re_randomize_bits (tied : bool) := re_randomize_from tied v0.
  (** rerandomize.rs 50-182 without the bit variables *)
  Definition re_randomize_gen (tied : bool) (tables : list (list (list F))) (commitment : PRep) (x_tilde y_tilde : LC F) (randomness : option S) : Prog F unit :=
    pbind (re_randomize_bits tied tables commitment x_tilde y_tilde randomness) (fun _ => PRet tt).
  (** rerandomize.rs 50-182 [re_randomize] *)
  Definition re_randomize := re_randomize_gen false.

  (** ** single_level_select_and_rerandomize.rs *)

  (** The raw fields [.x], [.y] of [Affine], which are 0 for the point at infinity. *)
  Definition raw_xy (P : C) : F * F := match coords P with Some xy => xy | None => (0, 0) end.

  (** single_level_select_and_rerandomize.rs 18-25 [SingleLayerParameters] *)
  Record SLParams := mkSLP {
    sl_bp : BPGens C; sl_pc : PedersenGens C; sl_delta : C; sl_a : F; sl_b : F; sl_tables : list (list (list F)) }.
  (** single_level_select_and_rerandomize.rs 28-40 [new]; the generators and Delta,
      derived by hashing in Rust, are arguments *)
  Definition sl_new (bp : BPGens C) (pc : PedersenGens C) (delta : C) : option SLParams :=
    do tables <- build_tables (pcB_blinding pc);
    Some (mkSLP bp pc delta (sw_a C) (sw_b C) tables).
  (** single_level_select_and_rerandomize.rs 42-69 [commit]: [msm] returns an error
      (hence a panic) unless there are as many generators as scalars *)
  Definition sl_commit (sl : SLParams) (v : list S) (v_blinding : S) (set : nat) : option C :=
    do G <- share_G (sl_bp sl) 0 (length v * (set + 1));
    let generators := pcB_blinding (sl_pc sl) :: skipn (length v * set) G in
    let scalars := v_blinding :: v in
    guard (Nat.eqb (length generators) (length scalars)) (Some (msm scalars generators)).

  (** single_level_select_and_rerandomize.rs 73-126
      [single_level_select_and_rerandomize]; [enc] is [serialize_compressed].  The
      code is [tied = false], [A0 = v0] (see [rerand_iter], [re_randomize_from]). *)
  Definition single_level_from (tied : bool) (A0 : C) (enc : C -> bytes) (sl : SLParams) (rerandomized_child : C) (children : list (LC F))
    (child_plus_delta : option C) (randomness : option S) : Prog F (list (Var * Var * Var)) :=
    PAppend "rerandomized_child" (enc rerandomized_child)
    (palloc (option_map (fun P => fst (raw_xy P)) child_plus_delta) (fun x_var =>
    pbind (select (lc_var x_var) children) (fun _ =>
    palloc (option_map (fun P => snd (raw_xy P)) child_plus_delta) (fun y_var =>
    pbind (curve_check (lc_var x_var) (lc_var y_var) (sl_a sl) (sl_b sl)) (fun _ =>
    let t := raw_xy (vadd rerandomized_child (sl_delta sl)) in
    re_randomize_from tied A0 (sl_tables sl) (mkPRep (lc_var x_var) (lc_var y_var) child_plus_delta) (lc_const (fst t)) (lc_const (snd t)) randomness))))).
  (** single_level_select_and_rerandomize.rs 73-126 *)
  Definition single_level (enc : C -> bytes) (sl : SLParams) (rerandomized_child : C) (children : list (LC F))
    (child_plus_delta : option C) (randomness : option S) : Prog F unit :=
    pbind (single_level_from false v0 enc sl rerandomized_child children child_plus_delta randomness) (fun _ => PRet tt).

  (** [chunks_exact(k)] for k > 0 *)
  Fixpoint chunks_exact {A} (fuel k : nat) (l : list A) : list (list A) :=
    match fuel with
    | O => []
    | Datatypes.S fuel' => if (length l <? k)%nat then [] else firstn k l :: chunks_exact fuel' k (skipn k l)
    end.
  (** single_level_select_and_rerandomize.rs 152-182: the loop over the chunks; [i]
      is the index of the next chunk.  [ws] are the witnesses ([xy[i]] panics when
      there are more chunks than witnesses). *)
  Fixpoint batched_loop (sl : SLParams) (ws : option (list C)) (i : nat) (chunks : list (list (LC F))) (sum : PRep) : Prog F PRep :=
    match chunks with
    | [] => PRet sum
    | chunk :: chunks' =>
      punwrap (match ws with None => Some None | Some l => option_map Some (nth_error l i) end) (fun wit =>
      palloc (option_map (fun P => fst (raw_xy P)) wit) (fun x_var =>
      palloc (option_map (fun P => snd (raw_xy P)) wit) (fun y_var =>
      let sel := mkPRep (lc_var x_var) (lc_var y_var) wit in
      pbind (select (lc_var x_var) chunk) (fun _ =>
      pbind (curve_check (lc_var x_var) (lc_var y_var) (sl_a sl) (sl_b sl)) (fun _ =>
      pbind (if (i =? 0)%nat then PRet sel else checked_helper sum sel) (fun sum' =>
      batched_loop sl ws (i + 1) chunks' sum'))))))
    end.
  (** single_level_select_and_rerandomize.rs 130-195
      [single_level_batched_select_and_rerandomize]: division by M and
      [chunks_exact(0)] panic.  The code is [tied = false], [A0 = v0]. *)
  Definition single_level_batched_from (tied : bool) (A0 : C) (M : nat) (sl : SLParams) (sum_of_rerandomized : C) (children : list (LC F))
    (children_plus_delta : option (list C)) (randomness : option S) : Prog F (list (Var * Var * Var)) :=
    let k := (length children / M)%nat in
    if ((M =? 0) || (k =? 0))%nat then PPanic else
    pbind (batched_loop sl children_plus_delta 0 (chunks_exact (length children) k children)
             (mkPRep (lc_var One) (lc_var One) (option_map (fun _ => v0) children_plus_delta))) (fun sum =>
    let t := raw_xy (vadd sum_of_rerandomized (vsmul (fN (N.of_nat M)) (sl_delta sl))) in
    re_randomize_from tied A0 (sl_tables sl) sum (lc_const (fst t)) (lc_const (snd t)) randomness).
  (** single_level_select_and_rerandomize.rs 130-195 *)
  Definition single_level_batched (M : nat) (sl : SLParams) (sum_of_rerandomized : C) (children : list (LC F))
    (children_plus_delta : option (list C)) (randomness : option S) : Prog F unit :=
    pbind (single_level_batched_from false v0 M sl sum_of_rerandomized children children_plus_delta randomness) (fun _ => PRet tt).
End CG.
Arguments PRep {F S} C.
Arguments SLParams {F S} C.
