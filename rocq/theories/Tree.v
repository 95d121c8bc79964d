(** * Model of relations/src/curve_tree.rs and of the tree part of curve_tree_prover.rs

    Rust arrays of length L (children) and M (commitments) are lists here; [node_combine]
    produces lists of those lengths. *)
From Verif Require Export CurveGadgets.
Local Open Scope F_scope.

(** Result of a function with a [while] loop: a value, a panic, or the loop has not
    finished within the given number of iterations. *)
Inductive TRes (A : Type) : Type := TOk (a : A) | TPanic | TFuel.
Arguments TOk {A} _. Arguments TPanic {A}. Arguments TFuel {A}.

(** curve_tree.rs 285-293 [CurveTreeNode]; [A] and [B] are the points of P0 and P1 *)
Inductive Node (A B : Type) : Type :=
| Branch (parent_commitment : list A) (children : list (option (Node B A))) (height elements : nat)
| Leaf (c : A).
Arguments Branch {A B} _ _ _ _. Arguments Leaf {A B} _.

(** curve_tree.rs 310-320 [commitment]: indexing panics *)
Definition n_commitment {A B} (n : Node A B) (tree_index : nat) : option A :=
  match n with Branch pc _ _ _ => nth_error pc tree_index | Leaf c => Some c end.
(** curve_tree.rs 322-332 [height] *)
Definition n_height {A B} (n : Node A B) : nat := match n with Branch _ _ h _ => h | Leaf _ => 0%nat end.
(** curve_tree.rs 334-344 [elements] *)
Definition n_elements {A B} (n : Node A B) : nat := match n with Branch _ _ _ e => e | Leaf _ => 1%nat end.

(** [L.pow(h)] on a 64-bit [usize]: with overflow checks ([oc], debug builds) an
    overflow panics, otherwise it wraps around *)
Definition usize_pow (oc : bool) (L h : nat) : option N :=
  let p := (N.of_nat L ^ N.of_nat h)%N in
  if (p <? 2 ^ 64)%N then Some p else if oc then None else Some (p mod 2 ^ 64)%N.
(** curve_tree.rs 346-350 [child_index]: [self.height() - 1] underflows for leaves
    (with overflow checks a panic, otherwise [L.pow(u32::MAX)]; not modelled further:
    never called on leaves), division by zero panics *)
Definition child_index (oc : bool) (L h : nat) (index : N) : option nat :=
  match h with
  | O => None
  | S h' =>
    do capacity <- usize_pow oc L h;
    do child_capacity <- usize_pow oc L h';
    if (capacity =? 0)%N || (child_capacity =? 0)%N then None else Some (N.to_nat ((index mod capacity) / child_capacity))
  end.

(** [f] applied to [children[k]]; a panic for an empty slot and for an index out of
    range *)
Definition at_child {A R} (f : A -> option R) : list (option A) -> nat -> option R :=
  fix go (l : list (option A)) (k : nat) : option R :=
    match l with
    | [] => None
    | x :: r => match k with
                | O => match x with Some c => f c | None => None end
                | S k' => go r k'
                end
    end.

(** curve_tree.rs 263-282 [x_coordinates] *)
Definition x_coordinates {F : Field} {S : PField} {C : SWCurve F S} {B} (children : list (option (Node C B))) (delta : C) (tree_index : nat) : option (list F) :=
  all_some (map (fun o => match o with
                          | None => Some 0
                          | Some c => option_map (fun p => fst (raw_xy (vadd p delta))) (n_commitment c tree_index)
                          end) children).

(** curve_tree.rs 355-398 [combine]; [children[0]] panics for L = 0 *)
Definition node_combine {F0 F1 : PField} {P0 : SWCurve F1 F0} {P1 : SWCurve F0 F1} (L M : nat) (children : list (Node P1 P0)) (prm : SLParams P0) (delta : P1) : option (Node P0 P1) :=
  if (L <? length children)%nat then None else
  let elements := fold_left (fun e c => (e + n_elements c)%nat) children 0%nat in
  let cs := map Some children ++ repeat None (L - length children) in
  do c0 <- nth_error cs 0;
  let height := match c0 with Some c => (n_height c + 1)%nat | None => 1%nat end in
  do comms <- all_some (map (fun tree_index => do xs <- x_coordinates cs delta tree_index; sl_commit prm xs 0 tree_index) (seq 0 M));
  Some (Branch comms cs height elements).

(** curve_tree.rs 68-73, 90-95: the chunk of index [i] *)
Definition forest_chunk {A} (L forest_length i : nat) (forest : list A) : list A :=
  firstn (forest_length - i * L) (skipn (i * L) (firstn ((i + 1) * L) forest)).
(** curve_tree.rs 66-79, 88-101: one level *)
Definition combine_forest {F0 F1 : PField} {P0 : SWCurve F1 F0} {P1 : SWCurve F0 F1} (L M forest_length next_forest_length : nat) (forest : list (Node P1 P0))
  (prm : SLParams P0) (delta : P1) : option (list (Node P0 P1)) :=
  all_some (map (fun i => node_combine L M (forest_chunk L forest_length i forest) prm delta) (seq 0 next_forest_length)).
(** [(n + L - 1) / L], L > 0 *)
Definition next_length (L n : nat) : nat := ((n + L - 1) / L)%nat.

Section TreeDef.
  Context {F0 F1 : PField} {P0 : SWCurve F1 F0} {P1 : SWCurve F0 F1}.

  (** curve_tree.rs 12-15 [SelRerandParameters] *)
  Record SRParams := mkSRP { even_p : SLParams P0; odd_p : SLParams P1 }.
  (** curve_tree.rs 26-34 [CurveTree] *)
  Inductive CurveTree := TEven (n : Node P0 P1) | TOdd (n : Node P1 P0).
  (** curve_tree.rs 143-148 [height] *)
  Definition t_height (t : CurveTree) : nat := match t with TEven n => n_height n | TOdd n => n_height n end.

  (** curve_tree.rs 117-133: the loop *)
  Fixpoint increase_loop (fuel L M : nat) (prm : SRParams) (height : nat) (res : CurveTree) : TRes CurveTree :=
    match fuel with
    | O => TFuel
    | S fuel' =>
      if (t_height res <? height)%nat then
        match (match res with
               | TEven ct => option_map TOdd (node_combine L M [ct] (odd_p prm) (sl_delta (even_p prm)))
               | TOdd ct => option_map TEven (node_combine L M [ct] (even_p prm) (sl_delta (odd_p prm)))
               end) with
        | None => TPanic
        | Some res' => increase_loop fuel' L M prm height res'
        end
      else TOk res
    end.
  (** curve_tree.rs 108-138 [increase_height] *)
  Definition increase_height (fuel L M : nat) (prm : SRParams) (t : CurveTree) (height : option nat) : TRes CurveTree :=
    match height with None => TOk t | Some h => increase_loop fuel L M prm h t end.

  (** curve_tree.rs 62-105: the loop over pairs of levels *)
  Fixpoint from_loop (fuel L M : nat) (prm : SRParams) (even_forest : list (Node P0 P1)) (forest_length next_forest_length : nat) : TRes CurveTree :=
    match fuel with
    | O => TFuel
    | S fuel' =>
      if (forest_length <=? 1)%nat then match nth_error even_forest 0 with None => TPanic | Some n => TOk (TEven n) end
      else
        match combine_forest L M forest_length next_forest_length even_forest (odd_p prm) (sl_delta (even_p prm)) with
        | None => TPanic
        | Some odd_forest =>
          let forest_length := next_forest_length in
          let next_forest_length := next_length L next_forest_length in
          if (forest_length =? 1)%nat then match nth_error odd_forest 0 with None => TPanic | Some n => TOk (TOdd n) end
          else
            match combine_forest L M forest_length next_forest_length odd_forest (even_p prm) (sl_delta (odd_p prm)) with
            | None => TPanic
            | Some even_forest => from_loop fuel' L M prm even_forest next_forest_length (next_length L next_forest_length)
            end
        end
    end.
  (** curve_tree.rs 47-106 [from_set]; [fuel] bounds both loops; division by L = 0
      panics *)
  Definition from_set (fuel L M : nat) (prm : SRParams) (set : list P0) (height : option nat) : TRes CurveTree :=
    if (length set =? 0)%nat || (L =? 0)%nat then TPanic else
    match from_loop fuel L M prm (map Leaf set) (length set) (next_length L (length set)) with
    | TOk t => increase_height fuel L M prm t height
    | r => r
    end.
End TreeDef.
Arguments SRParams {F0 F1} P0 P1. Arguments CurveTree {F0 F1} P0 P1.

(** ** curve_tree_prover.rs: witness paths *)

(** curve_tree_prover.rs 132-139 [CurveTreeWitness]: scalars of P0, a point of P1 *)
Record Wit (F : Field) (C : Type) := mkWit { w_siblings : list F; w_child : C }.
Arguments mkWit {F C} _ _. Arguments w_siblings {F C} _. Arguments w_child {F C} _.

(** curve_tree_prover.rs 25-63 [select_and_rerandomize_prover_witness] of a node: the
    entries pushed to [even_nodes] and [odd_nodes] *)
Fixpoint node_witness {F0 F1 : PField} {P0 : SWCurve F1 F0} {P1 : SWCurve F0 F1} (oc : bool) (L : nat) (n : Node P0 P1) (index : N) (tree_index : nat)
  (delta_even : P0) (delta_odd : P1) {struct n} : option (list (Wit F0 P1) * list (Wit F1 P0)) :=
  match n with
  | Leaf _ => Some ([], [])
  | Branch _ children h _ =>
    do k <- child_index oc L h index;
    at_child (fun child =>
      do siblings <- x_coordinates children delta_odd tree_index;
      do c <- n_commitment child tree_index;
      do r <- node_witness oc L child index tree_index delta_odd delta_even;
      let '(odd, even) := r in
      Some (mkWit siblings c :: even, odd)) children k
  end.
(** curve_tree_prover.rs 77-113 [select_and_rerandomize_prover_witness]; with the
    [assert_eq!] on the height *)
Definition tree_witness {F0 F1 : PField} {P0 : SWCurve F1 F0} {P1 : SWCurve F0 F1} (oc : bool) (L : nat) (t : CurveTree P0 P1) (index : N) (tree_index : nat) (prm : SRParams P0 P1) :
  option (list (Wit F0 P1) * list (Wit F1 P0)) :=
  do r <- match t with
          | TEven ct => node_witness oc L ct index tree_index (sl_delta (even_p prm)) (sl_delta (odd_p prm))
          | TOdd ct => do r <- node_witness oc L ct index tree_index (sl_delta (odd_p prm)) (sl_delta (even_p prm)); Some (snd r, fst r)
          end;
  guard (t_height t =? length (fst r) + length (snd r))%nat (Some r).
