(** * Model of the select-and-rerandomize gadgets over whole paths

    relations/src/curve_tree_prover.rs, curve_tree_verifier.rs,
    batched_curve_tree_prover.rs, batched_curve_tree_verifier.rs.

    The bodies of the Rust loops are collected as lists of levels first and then run
    one after the other; a panic in the middle of a loop therefore shows up before
    the levels preceding it have run, which makes no difference (a panic is a panic).
    The provers for the two curves run one after the other, not in parallel. *)
From Verif Require Export Tree.
Local Open Scope F_scope.

(** [f i x] for the i-th element, counting from [i] *)
Fixpoint imap {A B} (f : nat -> A -> B) (i : nat) (l : list A) : list B :=
  match l with [] => [] | x :: r => f i x :: imap f (S i) r end.

(** ** One level *)
Section Levels.
  Context {F : Field} {V : VSpace F} (E : TrEnv V).
  (** A level of the prover: values of the children, scalar of the parent, gadget. *)
  Record PLevel := mkPL { pl_xs : list F; pl_r : F; pl_gadget : list (LC F) -> Prog F unit }.
  (** curve_tree_prover.rs 328-342 and batched_curve_tree_prover.rs 342-370: the
      variables of the children are constants if the scalar is zero and a vector
      commitment otherwise.  [pc] are the generators held by the prover, [g] the
      generators in the parameters. *)
  Definition prove_level (pc : PedersenGens V) (g : BPGens V) (s : PState F) (lv : PLevel) : option (PState F) :=
    do sv <- (if feqb (pl_r lv) 0 then Some (s, map lc_const (pl_xs lv))
              else do r <- p_commit_vec E pc g s (pl_xs lv) (pl_r lv); Some (fst r, map lc_var (snd (snd r))));
    do r <- prun E (pl_gadget lv (snd sv)) (fst sv);
    Some (fst r).
  (** curve_tree_prover.rs 230-250, 253-273 (the loops) *)
  Fixpoint prove_levels (pc : PedersenGens V) (g : BPGens V) (s : PState F) (lvs : list PLevel) : option (PState F) :=
    match lvs with [] => Some s | lv :: r => do s' <- prove_level pc g s lv; prove_levels pc g s' r end.

  (** A level of the verifier: public values of the children, or dimension and
      commitment. *)
  Record VLevel := mkVL { vl_src : list F + nat * V; vl_gadget : list (LC F) -> Prog F unit }.
  (** curve_tree_verifier.rs 110-142 and batched_curve_tree_verifier.rs 121-168 *)
  Definition verify_level (t : VState V) (lv : VLevel) : option (VState V) :=
    let '(t1, vars) := match vl_src lv with
                       | inl xs => (t, map lc_const xs)
                       | inr (dim, c) => let r := v_commit_vec E t dim c in (fst r, map lc_var (snd r))
                       end in
    do r <- vrun E (vl_gadget lv vars) t1;
    Some (fst r).
  (** curve_tree_verifier.rs 104-143, 157-200 (the loops) *)
  Fixpoint verify_levels (t : VState V) (lvs : list VLevel) : option (VState V) :=
    match lvs with [] => Some t | lv :: r => do t' <- verify_level t lv; verify_levels t' r end.
End Levels.
Arguments PLevel F : clear implicits. Arguments VLevel {F} V.

(** curve_tree_prover.rs 170-180 and batched_curve_tree_prover.rs 120-128
    [root_is_even]; only called when there is at least one node, the result for none
    is not used *)
Definition root_is_even {A B} (evens : list A) (odds : list B) : option bool :=
  if (length evens =? length odds)%nat then Some true
  else guard (length evens + 1 =? length odds)%nat (Some false).
(** curve_tree_prover.rs 232-241, 255-264: scalar of the i-th parent; [top]: the root is
    on this curve *)
Definition parent_scalar {F : Field} (top : bool) (scalars : nat -> F) (i : nat) : F :=
  if top then match i with O => 0 | S j => scalars j end else scalars i.

Section SR.
  Context {F0 F1 : PField} {P0 : SWCurve F1 F0} {P1 : SWCurve F0 F1}.

  (** ** Single path, prover *)

  (** curve_tree.rs 203-212 [SelectAndRerandomizePath] *)
  Record Path := mkPath { pa_selected : P0; pa_odd : list P1; pa_even : list P0 }.

  (** curve_tree_prover.rs 352-371 (helper), 206-211: the re-randomized child *)
  Definition rerandomized (prm : SLParams P1) (w : Wit F0 P1) (r : F1) : P1 := vadd (w_child w) (vsmul r (pcB_blinding (sl_pc prm))).
  (** curve_tree_prover.rs 230-250: levels of one curve; [prm] are the parameters of the
      curve of the children *)
  Definition single_levels (enc : P1 -> bytes) (prm : SLParams P1) (top : bool) (nodes : list (Wit F0 P1)) (parent_scalars : nat -> F0) (child_scalars : nat -> F1) : list (PLevel F0) :=
    imap (fun i w => mkPL (w_siblings w) (parent_scalar top parent_scalars i) (fun vars =>
      single_level enc prm (rerandomized prm w (child_scalars i)) vars (Some (vadd (w_child w) (sl_delta prm))) (Some (child_scalars i)))) 0 nodes.
End SR.
Arguments Path {F0 F1} P0 P1.

Section SR2.
  Context {F0 F1 : PField} {P0 : SWCurve F1 F0} {P1 : SWCurve F0 F1}.
  Variables (E0 : TrEnv P0) (E1 : TrEnv P1) (enc0 : P0 -> bytes) (enc1 : P1 -> bytes).

  (** curve_tree_prover.rs 203-228, 280-291: the path and the scalar of the selected leaf *)
  Definition make_path (prm : SRParams P0 P1) (evens : list (Wit F0 P1)) (odds : list (Wit F1 P0)) (odd_scalars : nat -> F1) (even_scalars : nat -> F0) : Path P0 P1 * F0 :=
    let ev := imap (fun i w => rerandomized (even_p prm) w (even_scalars i)) 0 odds in
    (mkPath (last ev v0) (imap (fun i w => rerandomized (odd_p prm) w (odd_scalars i)) 0 evens) (removelast ev),
     match odds with [] => 0 | _ => even_scalars (length odds - 1)%nat end).
  (** curve_tree_prover.rs 186-293 [select_and_rerandomize_prover_gadget] of a witness
      path; [odd_scalars i] is the scalar drawn for the child of the i-th even node,
      [even_scalars i] for the child of the i-th odd node *)
  Definition sr_prove (pc0 : PedersenGens P0) (pc1 : PedersenGens P1) (prm : SRParams P0 P1) (evens : list (Wit F0 P1)) (odds : list (Wit F1 P0))
    (odd_scalars : nat -> F1) (even_scalars : nat -> F0) (s0 : PState F0) (s1 : PState F1) : option (PState F0 * PState F1 * (Path P0 P1 * F0)) :=
    do top <- root_is_even evens odds;
    do s0' <- prove_levels E0 pc0 (sl_bp (even_p prm)) s0 (single_levels enc1 (odd_p prm) top evens even_scalars odd_scalars);
    do s1' <- prove_levels E1 pc1 (sl_bp (odd_p prm)) s1 (single_levels enc0 (even_p prm) (negb top) odds odd_scalars even_scalars);
    Some (s0', s1', make_path prm evens odds odd_scalars even_scalars).
  (** curve_tree_prover.rs 118-130 [select_and_rerandomize_prover_gadget] of a tree *)
  Definition tree_prove (oc : bool) (L : nat) (t : CurveTree P0 P1) (index : N) (tree_index : nat) (pc0 : PedersenGens P0) (pc1 : PedersenGens P1) (prm : SRParams P0 P1)
    (odd_scalars : nat -> F1) (even_scalars : nat -> F0) (s0 : PState F0) (s1 : PState F1) : option (PState F0 * PState F1 * (Path P0 P1 * F0)) :=
    do w <- tree_witness oc L t index tree_index prm;
    sr_prove pc0 pc1 prm (fst w) (snd w) odd_scalars even_scalars s0 s1.

  (** ** Single path, verifier *)

  (** curve_tree_verifier.rs 23-47 [select_and_rerandomize_verification_commitments] *)
  Definition verification_commitments (t : CurveTree P0 P1) (p : Path P0 P1) : option (Path P0 P1) :=
    match t with
    | TOdd ct => guard (length (pa_even p) =? length (pa_odd p))%nat
        (do c <- n_commitment ct 0; Some (mkPath (pa_selected p) (c :: pa_odd p) (pa_even p)))
    | TEven ct => guard (length (pa_even p) + 1 =? length (pa_odd p))%nat
        (do c <- n_commitment ct 0; Some (mkPath (pa_selected p) (pa_odd p) (c :: pa_even p)))
    end.
  (** curve_tree_verifier.rs 99-102, 153-156: parity of the root *)
  Definition root_is_odd (p : Path P0 P1) : option bool :=
    if (length (pa_even p) + 1 =? length (pa_odd p))%nat then Some true
    else guard (length (pa_even p) =? length (pa_odd p))%nat (Some false).
  (** curve_tree_verifier.rs 111-127, 169-185: the public children of the root *)
  Definition root_xs_even (prm : SRParams P0 P1) (t : CurveTree P0 P1) (tree_index : nat) : option (list F0) :=
    match t with TEven (Branch _ children _ _) => x_coordinates children (sl_delta (odd_p prm)) tree_index | _ => None end.
  (** curve_tree_verifier.rs 169-185: the same for an odd root *)
  Definition root_xs_odd (prm : SRParams P0 P1) (t : CurveTree P0 P1) (tree_index : nat) : option (list F1) :=
    match t with TOdd (Branch _ children _ _) => x_coordinates children (sl_delta (even_p prm)) tree_index | _ => None end.
  (** curve_tree_verifier.rs 104-143: the levels of [even_verifier_gadget] *)
  Definition even_levels (L : nat) (prm : SRParams P0 P1) (t : CurveTree P0 P1) (p : Path P0 P1) (odd_root : bool) : option (list (VLevel P0)) :=
    all_some (imap (fun i c =>
      do src <- (if ((i =? 0)%nat && negb odd_root)%bool then option_map inl (root_xs_even prm t 0) else Some (inr (L, c)));
      do ch <- nth_error (pa_odd p) (if odd_root then i + 1 else i)%nat;
      Some (mkVL src (fun vars => single_level enc1 (odd_p prm) ch vars None None))) 0 (pa_even p)).
  (** curve_tree_verifier.rs 157-200: the levels of [odd_verifier_gadget] *)
  Definition odd_levels (L : nat) (prm : SRParams P0 P1) (t : CurveTree P0 P1) (p : Path P0 P1) (odd_root : bool) : option (list (VLevel P1)) :=
    all_some (imap (fun i c =>
      do ch <- (if (i <? length (pa_odd p) - 1)%nat then nth_error (pa_even p) (if odd_root then i else i + 1)%nat else Some (pa_selected p));
      do src <- (if ((i =? 0)%nat && odd_root)%bool then option_map inl (root_xs_odd prm t 0) else Some (inr (L, c)));
      Some (mkVL src (fun vars => single_level enc0 (even_p prm) ch vars None None))) 0 (pa_odd p)).
  (** curve_tree_verifier.rs 92-202 [even_verifier_gadget], [odd_verifier_gadget] *)
  Definition even_gadget (L : nat) (prm : SRParams P0 P1) (t : CurveTree P0 P1) (p : Path P0 P1) (t0 : VState P0) : option (VState P0) :=
    do odd_root <- root_is_odd p; do lvs <- even_levels L prm t p odd_root; verify_levels E0 t0 lvs.
  (** curve_tree_verifier.rs 146-202 [odd_verifier_gadget] *)
  Definition odd_gadget (L : nat) (prm : SRParams P0 P1) (t : CurveTree P0 P1) (p : Path P0 P1) (t1 : VState P1) : option (VState P1) :=
    do odd_root <- root_is_odd p; do lvs <- odd_levels L prm t p odd_root; verify_levels E1 t1 lvs.
  (** curve_tree_verifier.rs 59-77 [select_and_rerandomize_verifier_gadget]; [dbg]: debug
      assertions are on *)
  Definition sr_verify (dbg : bool) (L : nat) (prm : SRParams P0 P1) (t : CurveTree P0 P1) (p : Path P0 P1) (t0 : VState P0) (t1 : VState P1) : option (VState P0 * VState P1 * P0) :=
    do p' <- verification_commitments t p;
    if (dbg && negb (t_height t =? length (pa_even p') + length (pa_odd p'))%nat)%bool then None else
    do t0' <- even_gadget L prm t p' t0;
    do t1' <- odd_gadget L prm t p' t1;
    Some (t0', t1', pa_selected p').

End SR2.

(** ** Batched, prover *)
Section Batch1.
  Context {F0 F1 : PField} {P0 : SWCurve F1 F0} {P1 : SWCurve F0 F1}.
  (** batched_curve_tree_prover.rs 158-162, 320-329: sum of the selected children *)
  Definition sum_children (nodes : list (Wit F0 P1)) : P1 := fold_left (fun a w => vadd a (w_child w)) nodes v0.
  (** batched_curve_tree_prover.rs 320-329: the sum with its new blinding *)
  Definition rerandomized_sum (prm : SLParams P1) (nodes : list (Wit F0 P1)) (r : F1) : P1 := vadd (sum_children nodes) (vsmul r (pcB_blinding (sl_pc prm))).
  (** batched_curve_tree_prover.rs 303-339: one level *)
  Definition batched_level (M : nat) (prm : SLParams P1) (parent_r : F0) (child_r : F1) (nodes : list (Wit F0 P1)) : PLevel F0 :=
    mkPL (concat (map w_siblings nodes)) parent_r (fun vars =>
      single_level_batched M prm (rerandomized_sum prm nodes child_r) vars (Some (map (fun w => vadd (w_child w) (sl_delta prm)) nodes)) (Some child_r)).
  (** batched_curve_tree_prover.rs 253-270 and batched_curve_tree_verifier.rs 240-250:
      the loop over the leaves; [wits]: children and scalars *)
  Fixpoint leaves_loop (enc : P1 -> bytes) (prm : SLParams P1) (selected : list P1) (wits : option (list (P1 * F1))) (i : nat) (chunks : list (list (LC F0))) : Prog F0 unit :=
    match chunks with
    | [] => PRet tt
    | chunk :: chunks' =>
      punwrap (nth_error selected i) (fun R =>
      punwrap (match wits with None => Some None | Some l => option_map Some (nth_error l i) end) (fun wit =>
      pbind (single_level enc prm R chunk (option_map (fun cr => vadd (fst cr) (sl_delta prm)) wit) (option_map snd wit)) (fun _ =>
      leaves_loop enc prm selected wits (i + 1) chunks')))
    end.
  (** the loop over the chunks of children of the parents of the leaves *)
  Definition leaves_gadget (M : nat) (enc : P1 -> bytes) (prm : SLParams P1) (selected : list P1) (wits : option (list (P1 * F1))) (vars : list (LC F0)) : Prog F0 unit :=
    let k := (length vars / M)%nat in
    if ((M =? 0) || (k =? 0))%nat then PPanic else leaves_loop enc prm selected wits 0 (chunks_exact (length vars) k vars).
End Batch1.

Section Batch2.
  Context {F0 F1 : PField} {P0 : SWCurve F1 F0} {P1 : SWCurve F0 F1}.
  Variables (E0 : TrEnv P0) (E1 : TrEnv P1) (enc0 : P0 -> bytes).

  (** batched_curve_tree_prover.rs 67-72, 75-80: the i-th nodes of all paths *)
  Definition transpose {A} (n : nat) (paths : list (list A)) : option (list (list A)) :=
    all_some (map (fun i => all_some (map (fun p => nth_error p i) paths)) (seq 0 n)).
  (** batched_curve_tree_prover.rs 54-92 [select_and_rerandomize_prover_multi_witness];
      [indices] has length M *)
  Definition multi_witness (oc : bool) (L : nat) (t : CurveTree P0 P1) (indices : list N) (prm : SRParams P0 P1) : option (list (list (Wit F0 P1)) * list (list (Wit F1 P0))) :=
    do ws <- all_some (imap (fun ti i => tree_witness oc L t i ti prm) 0 indices);
    do w0 <- nth_error ws 0;
    do evens <- transpose (length (fst w0)) (map fst ws);
    do odds <- transpose (length (snd w0)) (map snd ws);
    guard (t_height t =? length evens + length odds)%nat (Some (evens, odds)).

  (** curve_tree.rs 214-223 [SelectAndRerandomizeMultiPath] *)
  Record MPath := mkMPath { mp_selected : list P0; mp_odd : list P1; mp_even : list P0 }.
  (** batched_curve_tree_prover.rs 157-206, 281-290: the paths; the leaves (children of the
      last odd node) are re-randomized one by one *)
  Definition make_mpath (M : nat) (prm : SRParams P0 P1) (evens : list (list (Wit F0 P1))) (odds : list (list (Wit F1 P0))) (odd_scalars : nat -> F1) (even_scalars leaf_scalars : nat -> F0) : MPath * list F0 :=
    (mkMPath (match odds with [] => repeat v0 M | _ => imap (fun i w => rerandomized (even_p prm) w (leaf_scalars i)) 0 (last odds []) end)
             (imap (fun i ws => rerandomized_sum (odd_p prm) ws (odd_scalars i)) 0 evens)
             (imap (fun i ws => rerandomized_sum (even_p prm) ws (even_scalars i)) 0 (removelast odds)),
     match odds with [] => repeat 0 M | _ => map leaf_scalars (seq 0 M) end).
  (** batched_curve_tree_prover.rs 208-232: levels of the even prover *)
  Definition m_even_levels (M : nat) (prm : SRParams P0 P1) (top : bool) (evens : list (list (Wit F0 P1))) (odd_scalars : nat -> F1) (even_scalars : nat -> F0) : list (PLevel F0) :=
    imap (fun i ws => batched_level M (odd_p prm) (parent_scalar top even_scalars i) (odd_scalars i) ws) 0 evens.
  (** batched_curve_tree_prover.rs 233-274: levels of the odd prover *)
  Definition m_odd_levels (M : nat) (prm : SRParams P0 P1) (top : bool) (odds : list (list (Wit F1 P0))) (selected : list P0) (odd_scalars : nat -> F1) (even_scalars leaf_scalars : nat -> F0) : list (PLevel F1) :=
    imap (fun i ws =>
      if (i <? length odds - 1)%nat then batched_level M (even_p prm) (parent_scalar top odd_scalars i) (even_scalars i) ws
      else mkPL (concat (map w_siblings ws)) (parent_scalar top odd_scalars i)
             (leaves_gadget M enc0 (even_p prm) selected (Some (imap (fun j w => (w_child w, leaf_scalars j)) 0 ws)))) 0 odds.
  (** batched_curve_tree_prover.rs 134-292 [batched_select_and_rerandomize_prover_gadget] *)
  Definition msr_prove (M : nat) (pc0 : PedersenGens P0) (pc1 : PedersenGens P1) (prm : SRParams P0 P1) (evens : list (list (Wit F0 P1))) (odds : list (list (Wit F1 P0)))
    (odd_scalars : nat -> F1) (even_scalars leaf_scalars : nat -> F0) (s0 : PState F0) (s1 : PState F1) : option (PState F0 * PState F1 * (MPath * list F0)) :=
    let mp := make_mpath M prm evens odds odd_scalars even_scalars leaf_scalars in
    do top <- root_is_even evens odds;
    do s0' <- prove_levels E0 pc0 (sl_bp (even_p prm)) s0 (m_even_levels M prm top evens odd_scalars even_scalars);
    do s1' <- prove_levels E1 pc1 (sl_bp (odd_p prm)) s1 (m_odd_levels M prm (negb top) odds (mp_selected (fst mp)) odd_scalars even_scalars leaf_scalars);
    Some (s0', s1', mp).
  (** batched_curve_tree_prover.rs 32-51 *)
  Definition mtree_prove (oc : bool) (L : nat) (t : CurveTree P0 P1) (indices : list N) (pc0 : PedersenGens P0) (pc1 : PedersenGens P1) (prm : SRParams P0 P1)
    (odd_scalars : nat -> F1) (even_scalars leaf_scalars : nat -> F0) (s0 : PState F0) (s1 : PState F1) : option (PState F0 * PState F1 * (MPath * list F0)) :=
    do w <- multi_witness oc L t indices prm;
    msr_prove (length indices) pc0 pc1 prm (fst w) (snd w) odd_scalars even_scalars leaf_scalars s0 s1.

  (** ** Batched, verifier *)

  (** batched_curve_tree_verifier.rs 35-38, 49-52: sum of the M root commitments *)
  Definition sum_roots {A : Type} {F : Field} {C : VSpace F} (M : nat) (n : Node C A) : option C :=
    do cs <- all_some (map (n_commitment n) (seq 0 M)); Some (fold_left vadd cs v0).
  (** batched_curve_tree_verifier.rs 25-57 [batched_select_and_rerandomize_verification_commitments] *)
  Definition m_verification_commitments (M : nat) (t : CurveTree P0 P1) (p : MPath) : option MPath :=
    match t with
    | TOdd ct => guard (length (mp_even p) =? length (mp_odd p))%nat
        (do c <- sum_roots M ct; Some (mkMPath (mp_selected p) (c :: mp_odd p) (mp_even p)))
    | TEven ct => guard (length (mp_even p) + 1 =? length (mp_odd p))%nat
        (do c <- sum_roots M ct; Some (mkMPath (mp_selected p) (mp_odd p) (c :: mp_even p)))
    end.
  (** batched_curve_tree_verifier.rs 110-113, 179-182 *)
  Definition m_root_is_odd (p : MPath) : option bool :=
    if (length (mp_even p) + 1 =? length (mp_odd p))%nat then Some true
    else guard (length (mp_even p) =? length (mp_odd p))%nat (Some false).
  (** batched_curve_tree_verifier.rs 123-150, 191-219: the public children of all roots *)
  Definition m_root_xs_even (M : nat) (prm : SRParams P0 P1) (t : CurveTree P0 P1) : option (list F0) :=
    option_map (@concat F0) (all_some (map (root_xs_even prm t) (seq 0 M))).
  (** batched_curve_tree_verifier.rs 191-219: the same for odd roots *)
  Definition m_root_xs_odd (M : nat) (prm : SRParams P0 P1) (t : CurveTree P0 P1) : option (list F1) :=
    option_map (@concat F1) (all_some (map (root_xs_odd prm t) (seq 0 M))).
  (** [assert_eq!(variables.len(), M * L)] *)
  Definition src_len {F : Field} {V : VSpace F} (M L : nat) (src : list F + nat * V) : bool :=
    match src with inl xs => length xs =? M * L | inr (d, _) => d =? M * L end%nat.
  (** batched_curve_tree_verifier.rs 115-169 *)
  Definition m_even_vlevels (L M : nat) (prm : SRParams P0 P1) (t : CurveTree P0 P1) (p : MPath) (odd_root : bool) : option (list (VLevel P0)) :=
    all_some (imap (fun i c =>
      do src <- (if ((i =? 0)%nat && negb odd_root)%bool then option_map inl (m_root_xs_even M prm t) else Some (inr ((L * M)%nat, c)));
      guard (src_len M L src)
      (do ch <- nth_error (mp_odd p) (if odd_root then i + 1 else i)%nat;
       Some (mkVL src (fun vars => single_level_batched M (odd_p prm) ch vars None None)))) 0 (mp_even p)).
  (** batched_curve_tree_verifier.rs 183-253 *)
  Definition m_odd_vlevels (L M : nat) (prm : SRParams P0 P1) (t : CurveTree P0 P1) (p : MPath) (odd_root : bool) : option (list (VLevel P1)) :=
    all_some (imap (fun i c =>
      do src <- (if ((i =? 0)%nat && odd_root)%bool then option_map inl (m_root_xs_odd M prm t) else Some (inr ((L * M)%nat, c)));
      guard (src_len M L src)
      (if (i <? length (mp_odd p) - 1)%nat
       then do ch <- nth_error (mp_even p) (if odd_root then i else i + 1)%nat;
            Some (mkVL src (fun vars => single_level_batched M (even_p prm) ch vars None None))
       else Some (mkVL src (leaves_gadget M enc0 (even_p prm) (mp_selected p) None)))) 0 (mp_odd p)).
  (** batched_curve_tree_verifier.rs 69-87, 103-254
      [batched_select_and_rerandomize_verifier_gadget] *)
  Definition msr_verify (dbg : bool) (L M : nat) (prm : SRParams P0 P1) (t : CurveTree P0 P1) (p : MPath) (t0 : VState P0) (t1 : VState P1) : option (VState P0 * VState P1 * list P0) :=
    do p' <- m_verification_commitments M t p;
    if (dbg && negb (t_height t =? length (mp_even p') + length (mp_odd p'))%nat)%bool then None else
    do odd_root <- m_root_is_odd p';
    do lv0 <- m_even_vlevels L M prm t p' odd_root; do t0' <- verify_levels E0 t0 lv0;
    do lv1 <- m_odd_vlevels L M prm t p' odd_root; do t1' <- verify_levels E1 t1 lv1;
    Some (t0', t1', mp_selected p').
End Batch2.
Arguments MPath {F0 F1} P0 P1.
