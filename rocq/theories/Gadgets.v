(** * Model of the field-level gadgets

    relations/src/select.rs, range_proof.rs, lookup.rs and the field-level part
    of curve.rs.  A gadget is a program over the constraint-system interface. *)
From Verif Require Export CS.
Local Open Scope F_scope.

Section Gadgets.
  Context {F : Field}.

  (** [cs.allocate(a).unwrap()]: panics on [Err] *)
  Definition palloc {A} (a : option F) (k : Var -> Prog F A) : Prog F A :=
    PAlloc a (fun r => match r with Ok v => k v | Err _ => PPanic end).

  (** select.rs 14-19: the loop over the remaining iterator and the final
      constraint *)
  Fixpoint select_loop (x product : LC F) (xs : list (LC F)) : Prog F unit :=
    match xs with
    | [] => PConstrain product (PRet tt)
    | xi :: xs' => PMul product (lc_sub xi x) (fun '(_, _, next_product) => select_loop x (lc_var next_product) xs')
    end.
  (** select.rs 6-20 [select]: [expect] on an empty iterator *)
  Definition select (x : LC F) (xs : list (LC F)) : Prog F unit :=
    match xs with
    | [] => PPanic
    | x0 :: xs' => select_loop x (lc_sub x0 x) xs'
    end.

  (** range_proof.rs 15-16: bit [i] of a u64.  A shift by 64 or more panics with
      overflow checks ([dbg]) and otherwise takes the shift amount modulo 64. *)
  Definition u64_bit (dbg : bool) (q : N) (i : nat) : option N :=
    if (i <? 64)%nat then Some (N.b2n (N.testbit_nat q i))
    else if dbg then None else Some (N.b2n (N.testbit_nat q (i mod 64))).
  (** range_proof.rs 12-36: the loop and what follows; [n] iterations remain, the next index is [i] *)
  Fixpoint range_loop (dbg : bool) (q : option N) (n i : nat) (exp_2 : F) (v : LC F) : Prog F (Res unit) :=
    match n with
    | O => PConstrain v (PRet (Ok tt))
    | S n' =>
      let go (a : option (F * F)) := PAllocMul a (fun r =>
        match r with
        | Err e => PRet (Err e)
        | Ok (a, b, o) =>
          PConstrain (lc_var o)
          (PConstrain (lc_add (lc_var a) (lc_sub (lc_var b) (lc_const 1)))
          (range_loop dbg q n' (S i) (exp_2 + exp_2) (lc_sub v (var_mul b exp_2))))
        end) in
      match q with
      | None => go None
      | Some q => match u64_bit dbg q i with
                  | None => PPanic
                  | Some bit => go (Some (fN (1 - bit), fN bit))
                  end
      end
    end.
  (** range_proof.rs 5-37 [range_proof] *)
  Definition range_proof (dbg : bool) (v : LC F) (v_assignment : option N) (n : nat) : Prog F (Res unit) :=
    range_loop dbg v_assignment n 0 1 v.

  (** lookup.rs 13-19 [b2f] *)
  Definition b2f (b : bool) : F := if b then 1 else 0.
  (** lookup.rs 21-24 [is_bit] *)
  Definition is_bit {A} (var : LC F) (k : Prog F A) : Prog F A :=
    PMul var (lc_sub var (lc_const 1)) (fun '(_, _, zero) => PConstrain (lc_var zero) k).
  (** lookup.rs 26-46 [bit]; [?] in the caller is folded in: [Err] ends the caller *)
  Definition bit {A} (val : option bool) (k : Var -> Prog F (Res A)) : Prog F (Res A) :=
    PAllocMul (option_map (fun b : bool => let s := if b then 1 else 0 in (s, s - 1)) val) (fun r =>
      match r with
      | Err e => PRet (Err e)
      | Ok (bit, bit_inv, zero) =>
        PConstrain (lc_sub (lc_var bit_inv) (lc_sub (lc_var bit) (lc_const 1)))
        (PConstrain (lc_var zero) (k bit))
      end).
  (** A row of eight table entries: [[F; WINDOW_ELEMS]]; entry [i] is [nth i u 0]
      (Rust arrays have length 8 by type). *)
  Definition row_at (u : list F) (i : nat) : F := nth i u 0.
  (** lookup.rs 69-71: the right term (the same expression is lookup.rs 58-62) *)
  Definition memb_right (u : list F) (sa s1 s2 : LC F) : LC F :=
    let r := lc_add (lc_sub (lc_add (lc_add (lc_neg (lc_mul sa (row_at u 0))) (lc_mul s2 (row_at u 0))) (lc_mul s1 (row_at u 0))) (lc_const (row_at u 0))) (lc_mul sa (row_at u 2)) in
    lc_sub (lc_sub (lc_add (lc_sub r (lc_mul s1 (row_at u 2))) (lc_mul sa (row_at u 4))) (lc_mul s2 (row_at u 4))) (lc_mul sa (row_at u 6)).
  (** lookup.rs 48-75 [single_membership] *)
  Definition single_membership {A} (u : list F) (sa s0 s1 s2 : LC F) (k : LC F -> Prog F A) : Prog F A :=
    let f := memb_right u sa s1 s2 in
    let f := lc_sub (lc_add (lc_sub (lc_sub (lc_add f (lc_mul sa (row_at u 1))) (lc_mul s2 (row_at u 1))) (lc_mul s1 (row_at u 1))) (lc_const (row_at u 1))) (lc_mul sa (row_at u 3)) in
    let f := lc_add (lc_add (lc_sub (lc_add f (lc_mul s1 (row_at u 3))) (lc_mul sa (row_at u 5))) (lc_mul s2 (row_at u 5))) (lc_mul sa (row_at u 7)) in
    PMul s0 f (fun '(_, _, lft) => k (lc_sub (lc_var lft) (memb_right u sa s1 s2))).
  (** lookup.rs 102-112: one membership per row *)
  Fixpoint lookup_rows {A} (rows : list (list F)) (sa s0 s1 s2 : LC F) (acc : list (LC F)) (k : list (LC F) -> Prog F A) : Prog F A :=
    match rows with
    | [] => k acc
    | u :: rows' => single_membership u sa s0 s1 s2 (fun lc => lookup_rows rows' sa s0 s1 s2 (acc ++ [lc]) k)
    end.
  (** lookup.rs 87-115 [lookup]; the table is its list of rows
      (lookup.rs 8-11 [Lookup3Bit]).  Besides the result the model returns the three
      bit variables of the index (least significant first), which Rust drops; they
      are used only to state which digit an assignment encodes. *)
  Definition lookup_bits (table : list (list F)) (index : option nat) : Prog F (Res (Var * Var * Var * list (LC F))) :=
    PAllocMul (option_map (fun i => (b2f (Nat.testbit i 1), b2f (Nat.testbit i 2))) index) (fun r =>
      match r with
      | Err e => PRet (Err e)
      | Ok (b1, b2, ba) =>
        bit (option_map (fun i => Nat.testbit i 0) index) (fun b0 =>
          is_bit (lc_var b1) (is_bit (lc_var b2)
            (lookup_rows table (lc_var ba) (lc_var b0) (lc_var b1) (lc_var b2) [] (fun res => PRet (Ok (b0, b1, b2, res))))))
      end).
  (** lookup.rs 87-115 [lookup] *)
  Definition lookup (table : list (list F)) (index : option nat) : Prog F (Res (list (LC F))) :=
    pbind (lookup_bits table index) (fun r => PRet match r with Ok (_, rs) => Ok rs | Err e => Err e end).

  (** curve.rs 6-24 [curve_check] *)
  Definition curve_check (x y : LC F) (a b : F) : Prog F unit :=
    PMul x x (fun '(_, _, x_squared) =>
    PMul x (lc_var x_squared) (fun '(_, _, x_cubed) =>
    PMul y y (fun '(_, _, y_squared) =>
    PConstrain (lc_sub (lc_add (lc_add (lc_var x_cubed) (lc_mul (lc_var x_squared) a)) (lc_const b)) (lc_var y_squared))
    (PRet tt)))).

  (** curve.rs 121-130 [CurveAddition] *)
  Record CurveAddition := mkCA { ca_xl : LC F; ca_yl : LC F; ca_xr : LC F; ca_yr : LC F; ca_xo : LC F; ca_yo : LC F; ca_delta : option F }.
  (** curve.rs 134-157 [incomplete_curve_addition] *)
  Definition incomplete_curve_addition (p : CurveAddition) : Prog F unit :=
    palloc (ca_delta p) (fun dv => let delta := lc_var dv in
    PMul delta (lc_sub (ca_xr p) (ca_xl p)) (fun '(_, _, d1) =>
    PConstrain (lc_sub (lc_var d1) (lc_sub (ca_yr p) (ca_yl p)))
    (PMul delta (lc_sub (ca_xo p) (ca_xl p)) (fun '(_, _, d2) =>
    PConstrain (lc_sub (lc_var d2) (lc_sub (lc_neg (ca_yo p)) (ca_yl p)))
    (PMul delta delta (fun '(_, _, d3) =>
    PConstrain (lc_sub (lc_add (lc_add (ca_xo p) (ca_xr p)) (ca_xl p)) (lc_var d3))
    (PRet tt))))))).
  (** curve.rs 177-186 [not_zero] *)
  Definition not_zero {A} (v v_inv : LC F) (k : Prog F A) : Prog F A :=
    PMul v v_inv (fun '(_, _, one) => PConstrain (lc_sub (lc_var one) (lc_var One)) k).
  (** curve.rs 160-173 [checked_curve_addition] *)
  Definition checked_curve_addition (p : CurveAddition) (inv : option F) : Prog F unit :=
    palloc inv (fun iv => not_zero (lc_sub (ca_xl p) (ca_xr p)) (lc_var iv) (incomplete_curve_addition p)).
End Gadgets.
Arguments CurveAddition F : clear implicits.
