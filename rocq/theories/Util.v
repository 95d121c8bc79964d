(** * Model of bulletproofs/src/util.rs

    Panics are [None].  Vectors are lists. *)

From Verif Require Export Vec.
Local Open Scope F_scope.

(** Sequence a list of possibly panicking computations. *)
Fixpoint opt_all {A} (l : list (option A)) : option (list A) :=
  match l with
  | [] => Some []
  | x :: r => match x, opt_all r with Some a, Some b => Some (a :: b) | _, _ => None end
  end.

(** sequencing of calls that may panic (no code modelled) *)
Definition opt_bind {A B} (o : option A) (f : A -> option B) : option B :=
  match o with Some a => f a | None => None end.
Notation "'do' x <- e ; k" := (opt_bind e (fun x => k)) (at level 200, x pattern, e at level 100, k at level 200).

(** A guard that panics when the condition fails ([assert!], index checks). *)
Definition guard {A} (b : bool) (k : option A) : option A := if b then k else None.

Section Util.
  Context {F : Field}.
  Implicit Types (xs ys : list F) (x : F).

  (** inner_product_proof.rs 442-451 [inner_product]: panics on length mismatch. *)
  Definition inner_product xs ys : option F :=
    if Nat.eqb (length xs) (length ys) then Some (ip xs ys) else None.

  (** util.rs 33-62 [Poly]: coefficient vector, low degree first. *)
  Definition Poly := list F.

  (** util.rs 36-38 [Poly::zero]. *)
  Definition poly_zero (deg : nat) : Poly := repeat 0 (deg + 1).

  (** util.rs 48-55 [Poly::eval]: Horner from the highest coefficient. *)
  Definition poly_eval (p : Poly) (x : F) : F :=
    fold_left (fun out v => out * x + v) (rev p) 0.

  (** util.rs 31, 64-118 [VecPoly]: one coefficient vector per degree. *)
  Definition VecPoly := list (list F).

  (** util.rs 78-80 [VecPoly::zero]. *)
  Definition vp_zero (n deg : nat) : VecPoly := repeat (repeat 0 n) (deg + 1).

  (** util.rs 70-72 [VecPoly::deg]; only called on non-empty polynomials
      ([len() - 1] would underflow on an empty one). *)
  Definition vp_deg (p : VecPoly) : nat := length p - 1.

  (** util.rs 82-92 [VecPoly::eval]: [self.0[0].len()] panics on an empty
      polynomial and [v[i]] on a short row. *)
  Definition vp_eval (p : VecPoly) (x : F) : option (list F) :=
    match p with
    | [] => None
    | row0 :: _ =>
      if forallb (fun v => length row0 <=? length v) p
      then Some (map (fun i => fold_left (fun out v => out * x + nth i v 0) (rev p) 0)
                     (seq 0 (length row0)))
      else None
    end.

  (** util.rs 99-117 [VecPoly::inner_product]: coefficient [d] is the sum over
      [l + r = d] of the row inner products (which panic on unequal rows). *)
  Definition vp_ip_coeff (lhs rhs : VecPoly) (d : nat) : option F :=
    fold_left (fun acc l =>
      do a <- acc;
      let r := (d - l)%nat in
      if (l <=? vp_deg lhs) && (r <=? vp_deg rhs)
      then (do t <- inner_product (nth l lhs []) (nth r rhs []); Some (a + t))
      else Some a) (seq 0 (d + 1)) (Some 0).
  (** util.rs 98-117 [VecPoly::inner_product]: all coefficients *)
  Definition vp_inner_product (lhs rhs : VecPoly) : option Poly :=
    let deg := (vp_deg lhs + vp_deg rhs)%nat in
    opt_all (map (vp_ip_coeff lhs rhs) (seq 0 (deg + 1))).

  (** util.rs 139-162 [ScalarExp], [exp_iter(x).take(n)]. *)
  Fixpoint exp_iter_from (next x : F) (n : nat) : list F :=
    match n with O => [] | S k => next :: exp_iter_from (next * x) x k end.
  (** util.rs 139-162: [exp_iter(x).take(n)] *)
  Definition exp_iter x (n : nat) : list F := exp_iter_from 1 x n.

  (** util.rs 164-174 [add_vec]: [out] has the length of [b], indices run over
      [a]; panics if [a] is longer, pads with zeros if it is shorter. *)
  Definition add_vec (a b : list F) : option (list F) :=
    if length a <=? length b
    then Some (zipw fadd a b ++ repeat 0 (length b - length a))
    else None.

  (** util.rs 14-16, 176-205 [VecPoly1]. *)
  Record VecPoly1 := mkVP1 { vp1_0 : list F; vp1_1 : list F }.
  (** util.rs 120-122 [Poly2]. *)
  Record Poly2 := mkP2 { p2_0 : F; p2_1 : F; p2_2 : F }.
  (** util.rs 181-195 [VecPoly1::inner_product] (Karatsuba). *)
  Definition vp1_inner_product (l r : VecPoly1) : option Poly2 :=
    do t0 <- inner_product (vp1_0 l) (vp1_0 r);
    do t2 <- inner_product (vp1_1 l) (vp1_1 r);
    do lp <- add_vec (vp1_0 l) (vp1_1 l);
    do rp <- add_vec (vp1_0 r) (vp1_1 r);
    do t1 <- inner_product lp rp;
    Some (mkP2 t0 (t1 - t0 - t2) t2).
  (** util.rs 197-204 [VecPoly1::eval]. *)
  Definition vp1_eval (l : VecPoly1) x : option (list F) :=
    guard (length (vp1_0 l) <=? length (vp1_1 l))
      (Some (zipw (fun a b => a + b * x) (vp1_0 l) (vp1_1 l))).
  (** util.rs 252-256 [Poly2::eval]. *)
  Definition p2_eval (p : Poly2) x : F := p2_0 p + x * (p2_1 p + x * p2_2 p).

  (** util.rs 18-21, 207-250 [VecPoly3]. *)
  Record VecPoly3 := mkVP3 { vp3_0 : list F; vp3_1 : list F; vp3_2 : list F; vp3_3 : list F }.
  (** util.rs 124-134 [Poly6]. *)
  Record Poly6 := mkP6 { p6_1 : F; p6_2 : F; p6_3 : F; p6_4 : F; p6_5 : F; p6_6 : F }.
  (** util.rs 222-240 [VecPoly3::special_inner_product]. *)
  Definition vp3_special_inner_product (l r : VecPoly3) : option Poly6 :=
    do t10 <- inner_product (vp3_1 l) (vp3_0 r);
    do t11 <- inner_product (vp3_1 l) (vp3_1 r);
    do t20 <- inner_product (vp3_2 l) (vp3_0 r);
    do t21 <- inner_product (vp3_2 l) (vp3_1 r);
    do t30 <- inner_product (vp3_3 l) (vp3_0 r);
    do t13 <- inner_product (vp3_1 l) (vp3_3 r);
    do t31 <- inner_product (vp3_3 l) (vp3_1 r);
    do t23 <- inner_product (vp3_2 l) (vp3_3 r);
    do t33 <- inner_product (vp3_3 l) (vp3_3 r);
    Some (mkP6 t10 (t11 + t20) (t21 + t30) (t13 + t31) t23 t33).
  (** util.rs 242-249 [VecPoly3::eval]. *)
  Definition vp3_eval (l : VecPoly3) x : option (list F) :=
    let n := length (vp3_0 l) in
    guard ((n <=? length (vp3_1 l)) && (n <=? length (vp3_2 l)) && (n <=? length (vp3_3 l)))
      (Some (map (fun i => nth i (vp3_0 l) 0 + x * (nth i (vp3_1 l) 0
                           + x * (nth i (vp3_2 l) 0 + x * nth i (vp3_3 l) 0))) (seq 0 n))).
  (** util.rs 258-262 [Poly6::eval]. *)
  Definition p6_eval (p : Poly6) x : F :=
    x * (p6_1 p + x * (p6_2 p + x * (p6_3 p + x * (p6_4 p + x * (p6_5 p + x * p6_6 p))))).

  (** util.rs 267-279 [scalar_exp_vartime]: the [while n > 0] loop; [fuel] bounds
      the number of iterations (64 for a [u64]), [None] = fuel exhausted. *)
  Fixpoint scalar_exp_loop (fuel : nat) (result aux : F) (n : N) : option F :=
    if (n =? 0)%N then Some result
    else match fuel with
         | O => None
         | S k =>
           let result' := if (N.land n 1 =? 1)%N then result * aux else result in
           scalar_exp_loop k result' (aux * aux) (N.shiftr n 1)
         end.
  (** util.rs 267-279 [scalar_exp_vartime]: all 64 bits of the exponent *)
  Definition scalar_exp_vartime x (n : N) : option F := scalar_exp_loop 64 1 x n.

  (** [usize::is_power_of_two] *)
  Definition is_power_of_two (n : nat) : bool := negb (n =? 0)%nat && (n =? 2 ^ Nat.log2 n)%nat.
  (** [usize::next_power_of_two] (no overflow considered) *)
  Definition next_power_of_two (n : nat) : nat := 2 ^ Nat.log2_up n.

  (** util.rs 304-306 [sum_of_powers_slow] *)
  Definition sum_of_powers_slow x (n : nat) : F := vsum (exp_iter x n).
  (** util.rs 285-301 [sum_of_powers]; fuel [n] always suffices for halving. *)
  Fixpoint sum_of_powers_loop (fuel m : nat) (result factor : F) : option F :=
    if (2 <? m)%nat then
      match fuel with
      | O => None
      | S k => let factor' := factor * factor in
               sum_of_powers_loop k (m / 2)%nat (result + factor' * result) factor'
      end
    else Some result.
  (** util.rs 285-301 [sum_of_powers] *)
  Definition sum_of_powers x (n : nat) : option F :=
    if negb (is_power_of_two n) then Some (sum_of_powers_slow x n)
    else if (n =? 0)%nat || (n =? 1)%nat then Some (fnat n)
    else sum_of_powers_loop n n (1 + x) x.
End Util.
Arguments Poly : clear implicits.
Arguments VecPoly : clear implicits.
Arguments VecPoly1 : clear implicits.
Arguments VecPoly3 : clear implicits.
Arguments Poly2 : clear implicits.
Arguments Poly6 : clear implicits.
