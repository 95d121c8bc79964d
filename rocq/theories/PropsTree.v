(** * Properties of the tree construction and of witness paths (C41-C46)

    [t_walk oc L t i]: the leaf of P0 reached from the root by following [child_index]
    (the code's own addressing, with or without overflow checks); [enough_gens L M prm]:
    the parameters have generators for M vectors of length L; [well_committed],
    [plain_commitment], [slot_value], [opens]: see the start of TreeProofs.v. *)
From Verif Require Import GadgetProofs UtilProofs Toy Curve ToyCurve CurveGadgets SingleLevel PropsGadgets PropsRerand PropsSingle Tree TreeProofs.
From Coq Require Import Lia.
Local Open Scope F_scope.

(* test data or vocabulary of statements, no code modelled *)
Definition t_walk {F0 F1 : PField} {P0 : SWCurve F1 F0} {P1 : SWCurve F0 F1} (oc : bool) (L : nat) (t : CurveTree P0 P1) (i : N) : option P0 :=
  match t with
  | TEven n => match walk oc L n i with Some (inl c) => Some c | _ => None end
  | TOdd n => match walk oc L n i with Some (inr c) => Some c | _ => None end
  end.
(* test data or vocabulary of statements, no code modelled *)
Definition t_elements {F0 F1 : PField} {P0 : SWCurve F1 F0} {P1 : SWCurve F0 F1} (t : CurveTree P0 P1) : nat := match t with TEven n => n_elements n | TOdd n => n_elements n end.
(* test data or vocabulary of statements, no code modelled *)
Definition t_is_even {F0 F1 : PField} {P0 : SWCurve F1 F0} {P1 : SWCurve F0 F1} (t : CurveTree P0 P1) : bool := match t with TEven _ => true | TOdd _ => false end.

Section T.
  Context {F0 F1 : PField} {P0 : SWCurve F1 F0} {P1 : SWCurve F0 F1}.
  Implicit Types (L M : nat) (prm : SRParams P0 P1) (set : list P0) (t : CurveTree P0 P1).

  Lemma tree_ok_elements L M prm d set t : tree_ok L M prm d set t -> t_elements t = length set.
  Proof. destruct t as [n|n]; intros (_ & H & _); cbn [t_elements]; rewrite (holds_elements _ _ _ _ H); apply map_length. Qed.
  Lemma tree_ok_parity L M prm d set t : tree_ok L M prm d set t -> t_is_even t = Nat.even d.
  Proof. destruct t as [n|n]; intros (H & _); cbn [t_is_even]; congruence. Qed.
  Lemma tree_ok_walk oc L M prm d set t i : (0 < L)%nat -> (N.of_nat (L ^ d) < 2 ^ 64)%N -> tree_ok L M prm d set t -> t_walk oc L t i = nth_error set (N.to_nat (i mod N.of_nat (L ^ d))).
  Proof.
    intros HL Hc. destruct t as [n|n]; intros (_ & H & _); cbn [t_walk]; rewrite (walk_nth oc L HL d _ _ n _ i Hc H), nth_error_map; destruct (nth_error set _); reflexivity.
  Qed.
  Lemma index_small L d set i : (i < length set)%nat -> (length set <= L ^ d)%nat -> N.to_nat (N.of_nat i mod N.of_nat (L ^ d)) = i.
  Proof. intros H1 H2. rewrite N.mod_small by lia. apply Nat2N.id. Qed.
  (** Every tree that [from_set] returns. *)
  Lemma from_set_ok fuel L M prm set height t : from_set fuel L M prm set height = TOk t -> (0 < L)%nat /\ exists d, tree_ok L M prm d set t /\ (height = None -> minimal L d (length set)).
  Proof.
    unfold from_set. intros H. destruct (Nat.eqb_spec (length set) 0) as [|Hs]; [discriminate|]. destruct (Nat.eqb_spec L 0) as [|HL]; [discriminate|]. cbn [orb] in H. split; [lia|].
    assert (Hne : set <> []) by (intros ->; apply Hs; reflexivity).
    destruct (from_loop fuel L M prm (map Leaf set) (length set) (next_length L (length set))) as [t0| |] eqn:E; [|discriminate|discriminate].
    rewrite <- (map_length (Leaf (B := P1)) set) in E.
    destruct (from_loop_ok L M prm set ltac:(lia) Hne fuel 0 (map Leaf set) eq_refl (leaves_inv L M prm set) ltac:(lia) t0 E) as (d & Hd & Hm).
    destruct height as [h|]; cbn [increase_height] in H.
    - exists (Nat.max d h). split; [|discriminate]. eapply increase_loop_ok; [lia|exact Hd|exact H].
    - injection H as <-. exists d. auto.
  Qed.
  Lemma from_set_total fuel L M prm set height : (2 <= L)%nat -> set <> [] -> enough_gens L M (even_p prm) -> enough_gens L M (odd_p prm) -> (length set < fuel)%nat -> (match height with Some h => h < fuel | None => True end)%nat ->
    exists t, from_set fuel L M prm set height = TOk t.
  Proof.
    intros HL Hne He Ho Hf Hh. unfold from_set. destruct (Nat.eqb_spec (length set) 0) as [E|_]; [apply length_zero_iff_nil in E; contradiction|]. destruct (Nat.eqb_spec L 0) as [|_]; [lia|]. cbn [orb].
    pose proof (from_loop_fuel L M prm HL fuel (map Leaf set) (length set) Hf) as N1.
    pose proof (from_loop_total L M prm set ltac:(lia) Hne He Ho fuel 0 (map Leaf set) (leaves_inv L M prm set)) as N2. rewrite map_length in N2.
    destruct (from_loop _ _ _ _ _ _ _) as [t| |] eqn:E; [|congruence|congruence]. destruct height as [h|]; cbn [increase_height]; [|eauto].
    rewrite <- (map_length (Leaf (B := P1)) set) in E.
    destruct (from_loop_ok L M prm set ltac:(lia) Hne fuel 0 (map Leaf set) eq_refl (leaves_inv L M prm set) ltac:(lia) t E) as (d & Hd & _).
    pose proof (increase_loop_fuel L M prm h fuel t ltac:(lia)) as N3. pose proof (increase_loop_total L M prm set h ltac:(lia) He Ho fuel d t Hd) as N4.
    destruct (increase_loop _ _ _ _ _ _); [eauto|congruence|congruence].
  Qed.
End T.

(** ** C41: minimal height, all leaves in order *)
Theorem C41_from_set : forall (F0 F1 : PField) (P0 : SWCurve F1 F0) (P1 : SWCurve F0 F1) (L M : nat) (prm : SRParams P0 P1) (set : list P0) (fuel : nat) (oc : bool),
  (2 <= L)%nat -> set <> [] -> enough_gens L M (even_p prm) -> enough_gens L M (odd_p prm) -> (length set < fuel)%nat ->
  exists t h, from_set fuel L M prm set None = TOk t /\ t_height t = h /\ (length set <= L ^ h)%nat /\ (forall e, (e < h)%nat -> (L ^ e < length set)%nat) /\
    t_is_even t = Nat.even h /\ t_elements t = length set /\
    ((N.of_nat (L ^ h) < 2 ^ 64)%N -> forall i, (i < length set)%nat -> t_walk oc L t (N.of_nat i) = nth_error set i).
Proof.
  intros F0 F1 P0 P1 L M prm set fuel oc HL Hne He Ho Hf. destruct (from_set_total fuel L M prm set None HL Hne He Ho Hf I) as (t & Ht).
  destruct (from_set_ok _ _ _ _ _ _ _ Ht) as (_ & d & Hd & Hm). destruct (Hm eq_refl) as [Hm1 Hm2]. exists t, d. split; [exact Ht|]. split; [exact (tree_ok_height _ _ _ _ _ _ Hd)|].
  split; [exact Hm1|]. split; [exact Hm2|]. split; [exact (tree_ok_parity _ _ _ _ _ _ Hd)|]. split; [exact (tree_ok_elements _ _ _ _ _ _ Hd)|].
  intros Hc i Hi. rewrite (tree_ok_walk oc L M prm d set t (N.of_nat i) ltac:(lia) Hc Hd), (index_small L d set i Hi Hm1). reflexivity.
Qed.
Print Assumptions C41_from_set.

(** ** C42: requested heights *)
(** The height is reached and the elements are kept; indices keep their leaves as long
    as the capacity L^height fits in a [usize]. *)
Theorem C42_increase_height_partial : forall (F0 F1 : PField) (P0 : SWCurve F1 F0) (P1 : SWCurve F0 F1) (L M : nat) (prm : SRParams P0 P1) (set : list P0) (fuel fuel' h : nat) h0 t (oc : bool),
  from_set fuel L M prm set h0 = TOk t -> enough_gens L M (even_p prm) -> enough_gens L M (odd_p prm) -> (h < fuel')%nat ->
  exists t', increase_height fuel' L M prm t (Some h) = TOk t' /\ t_height t' = Nat.max h (t_height t) /\ t_is_even t' = Nat.even (t_height t') /\ t_elements t' = t_elements t /\
    ((N.of_nat (L ^ t_height t') < 2 ^ 64)%N -> forall i, (i < length set)%nat -> t_walk oc L t' (N.of_nat i) = nth_error set i).
Proof.
  intros F0 F1 P0 P1 L M prm set fuel fuel' h h0 t oc H He Ho Hf. destruct (from_set_ok _ _ _ _ _ _ _ H) as (HL & d & Hd & _). cbn [increase_height].
  pose proof (increase_loop_fuel L M prm h fuel' t ltac:(lia)) as N3. pose proof (increase_loop_total L M prm set h HL He Ho fuel' d t Hd) as N4.
  destruct (increase_loop fuel' L M prm h t) as [t'| |] eqn:E; [|congruence|congruence]. exists t'. pose proof (increase_loop_ok L M prm set h HL fuel' d t t' Hd E) as Hd'.
  pose proof (tree_ok_height _ _ _ _ _ _ Hd) as Eh. pose proof (tree_ok_height _ _ _ _ _ _ Hd') as Eh'. split; [reflexivity|]. split; [lia|]. split; [rewrite Eh'; exact (tree_ok_parity _ _ _ _ _ _ Hd')|].
  split; [rewrite (tree_ok_elements _ _ _ _ _ _ Hd), (tree_ok_elements _ _ _ _ _ _ Hd'); reflexivity|].
  intros Hc i Hi. rewrite Eh' in Hc. rewrite (tree_ok_walk oc L M prm _ set t' (N.of_nat i) HL Hc Hd'), (index_small L _ set i Hi); [reflexivity|]. apply (tree_ok_le _ _ _ _ _ _ HL Hd').
Qed.
Lemma combine_one_walk {F0 F1 : PField} {P0 : SWCurve F1 F0} {P1 : SWCurve F0 F1} oc (L M : nat) (ct : Node P1 P0) (prm : SLParams P0) delta n i c :
  node_combine L M [ct] prm delta = Some n -> walk oc L n i = Some c -> walk oc L ct i = Some (swap_sum c).
Proof.
  unfold node_combine. destruct (L <? length [ct])%nat; [discriminate|]. cbv zeta. cbn [map app nth_error opt_bind]. destruct (all_some _); [|discriminate]. cbn [opt_bind]. intros H. apply Some_inj in H. subst n.
  cbn [walk]. destruct (child_index oc L _ i) as [k|]; [|discriminate]. cbn [opt_bind]. destruct k as [|k].
  - cbn [at_child]. destruct (walk oc L ct i) as [c'|]; [|discriminate]. cbn [option_map]. intros H. apply Some_inj in H. subst c. destruct c'; reflexivity.
  - cbn [at_child]. intros H. exfalso. revert H. fold (@at_child (Node P1 P0) (P0 + P1)). rewrite at_child_spec. destruct (nth_error _ k) as [[x|]|] eqn:E; [|discriminate|discriminate].
    apply nth_error_In in E. apply repeat_spec in E. discriminate.
Qed.
(** Whatever the height, a leaf that can still be reached is the leaf that had this
    index before. *)
Theorem C42_leaves_kept : forall (F0 F1 : PField) (P0 : SWCurve F1 F0) (P1 : SWCurve F0 F1) (L M : nat) (prm : SRParams P0 P1) (fuel h : nat) t t' (oc : bool) i c,
  increase_height fuel L M prm t (Some h) = TOk t' -> t_walk oc L t' i = Some c -> t_walk oc L t i = Some c.
Proof.
  intros F0 F1 P0 P1 L M prm fuel h t t' oc i c. cbn [increase_height]. revert t. induction fuel as [|fuel IH]; intros t H; cbn [increase_loop] in H; [discriminate|].
  destruct (t_height t <? h)%nat; [|injection H as <-; auto]. destruct t as [ct|ct]; (destruct (node_combine L M [ct] _ _) as [n|] eqn:E; [|discriminate]); cbn [option_map] in H; intros Hw; specialize (IH _ H Hw); cbn [t_walk] in IH |- *.
  - destruct (walk oc L n i) as [[x|x]|] eqn:Ew; try discriminate. rewrite (combine_one_walk _ _ _ _ _ _ _ _ _ E Ew). exact IH.
  - destruct (walk oc L n i) as [[x|x]|] eqn:Ew; try discriminate. rewrite (combine_one_walk _ _ _ _ _ _ _ _ _ E Ew). exact IH.
Qed.
(** The full property is false: in a binary tree of height 64 no leaf can be addressed
    any more ([L.pow(64)] overflows with overflow checks, and is 0 without). *)
Theorem C42_tall_tree_refuted : forall (F0 F1 : PField) (P0 : SWCurve F1 F0) (P1 : SWCurve F0 F1) (M : nat) (prm : SRParams P0 P1) (set : list P0) (fuel : nat) h0 t t' (oc : bool) i,
  from_set fuel 2 M prm set h0 = TOk t -> (t_height t <= 64)%nat -> increase_height fuel 2 M prm t (Some 64%nat) = TOk t' -> t_walk oc 2 t' i = None.
Proof.
  intros F0 F1 P0 P1 M prm set fuel h0 t t' oc i H Hle H'. destruct (from_set_ok _ _ _ _ _ _ _ H) as (HL & d & Hd & _). cbn [increase_height] in H'.
  pose proof (increase_loop_ok 2 M prm set 64 HL fuel d t t' Hd H') as Hd'. rewrite (tree_ok_height _ _ _ _ _ _ Hd) in Hle. replace (Nat.max d 64) with 64%nat in Hd' by lia.
  assert (E : child_index oc 2 64 i = None) by (destruct oc; vm_compute; reflexivity).
  destruct t' as [n|n]; destruct Hd' as (_ & Hn & _); destruct n as [comms cs hh e|c]; cbn [holds] in Hn; try contradiction; destruct Hn as (-> & _); cbn [t_walk walk]; rewrite E; reflexivity.
Qed.
Print Assumptions C42_increase_height_partial.
Print Assumptions C42_leaves_kept.
Print Assumptions C42_tall_tree_refuted.

(** ** C43: every node commits to its children *)
Definition t_well_committed {F0 F1 : PField} {P0 : SWCurve F1 F0} {P1 : SWCurve F0 F1} (L M : nat) (prm : SRParams P0 P1) (t : CurveTree P0 P1) : Prop :=
  match t with
  | TEven n => well_committed L M (t_height t) (even_p prm) (odd_p prm) n
  | TOdd n => well_committed L M (t_height t) (odd_p prm) (even_p prm) n
  end.
Theorem C43_well_committed : forall (F0 F1 : PField) (P0 : SWCurve F1 F0) (P1 : SWCurve F0 F1) (L M : nat) (prm : SRParams P0 P1) (set : list P0) (fuel : nat) height t,
  from_set fuel L M prm set height = TOk t -> t_well_committed L M prm t.
Proof.
  intros F0 F1 P0 P1 L M prm set fuel height t H. destruct (from_set_ok _ _ _ _ _ _ _ H) as (_ & d & Hd & _). unfold t_well_committed. rewrite (tree_ok_height _ _ _ _ _ _ Hd).
  destruct t as [n|n]; destruct Hd as (_ & _ & Hw); exact Hw.
Qed.
Print Assumptions C43_well_committed.

(** ** C44: witness paths *)
Definition t_commitment {F0 F1 : PField} {P0 : SWCurve F1 F0} {P1 : SWCurve F0 F1} (t : CurveTree P0 P1) (ti : nat) : option (P0 + P1) :=
  match t with TEven n => option_map inl (n_commitment n ti) | TOdd n => option_map inr (n_commitment n ti) end.
(** The path opens the root commitment down to [leaf]; even and odd nodes alternate. *)
Definition t_opens {F0 F1 : PField} {P0 : SWCurve F1 F0} {P1 : SWCurve F0 F1} (L ti h : nat) (prm : SRParams P0 P1) (root : P0 + P1) (evens : list (Wit F0 P1)) (odds : list (Wit F1 P0)) (leaf : P0) : Prop :=
  match root with
  | inl r => opens L ti h (even_p prm) (odd_p prm) r evens odds (inl leaf)
  | inr r => opens L ti h (odd_p prm) (even_p prm) r odds evens (inr leaf)
  end.
Lemma walk_parity oc L M : forall d (F0 F1 : PField) (P0 : SWCurve F1 F0) (P1 : SWCurve F0 F1) (prm0 : SLParams P0) (prm1 : SLParams P1) (n : Node P0 P1) i c,
  well_committed L M d prm0 prm1 n -> walk oc L n i = Some c -> match c with inl _ => Nat.even d = true | inr _ => Nat.even d = false end.
Proof.
  induction d as [|d IH]; intros F0 F1 P0 P1 prm0 prm1 n i c Hw H; destruct n as [comms cs h e|x]; cbn [well_committed] in Hw; try contradiction; cbn [walk] in H.
  - apply Some_inj in H. subst c. reflexivity.
  - destruct Hw as (_ & _ & _ & _ & Hch). destruct (child_index oc L h i) as [k|]; [|discriminate]. cbn [opt_bind] in H. rewrite at_child_spec in H. destruct (nth_error cs k) as [[x|]|] eqn:E; [|discriminate|discriminate].
    destruct (walk oc L x i) as [y|] eqn:Ey; [|discriminate]. cbn [option_map] in H. apply Some_inj in H. subst c. specialize (IH _ _ _ _ _ _ x i y (Hch x (nth_error_In _ _ E)) Ey).
    rewrite Nat.even_succ, <- Nat.negb_even. destruct y; cbn [swap_sum]; rewrite IH; reflexivity.
Qed.
Lemma halves k : (next_length 2 k + k / 2 = k)%nat.
Proof.
  unfold next_length. replace (k + 2 - 1)%nat with (k + 1)%nat by lia. pose proof (Nat.div_mod (k + 1) 2 ltac:(lia)). pose proof (Nat.div_mod k 2 ltac:(lia)).
  pose proof (Nat.mod_upper_bound (k + 1) 2 ltac:(lia)). pose proof (Nat.mod_upper_bound k 2 ltac:(lia)). lia.
Qed.
Lemma tree_witness_spec {F0 F1 : PField} {P0 : SWCurve F1 F0} {P1 : SWCurve F0 F1} oc (L M ti d : nat) (prm : SRParams P0 P1) (set : list P0) t i :
  (0 < L)%nat -> (ti < M)%nat -> tree_ok L M prm d set t -> match t_walk oc L t i with
  | None => tree_witness oc L t i ti prm = None
  | Some leaf => exists evens odds root, tree_witness oc L t i ti prm = Some (evens, odds) /\ t_commitment t ti = Some root /\ t_opens L ti d prm root evens odds leaf /\
      length evens = (if t_is_even t then next_length 2 d else d / 2)%nat /\ length odds = (if t_is_even t then d / 2 else next_length 2 d)%nat
  end.
Proof.
  intros HL Hti Hd. pose proof (tree_ok_height _ _ _ _ _ _ Hd) as Eh. unfold tree_witness. rewrite Eh.
  destruct t as [n|n]; destruct Hd as (Hp & Hn & Hw); cbn [t_walk t_commitment].
  - pose proof (node_witness_spec oc L M ti HL Hti d _ _ _ _ (even_p prm) (odd_p prm) n i Hw) as Hs. pose proof (fun c => walk_parity oc L M d _ _ _ _ _ _ n i c Hw) as Hk.
    destruct (walk oc L n i) as [[c|c]|]; [|specialize (Hk _ eq_refl); cbn in Hk; congruence|rewrite Hs; reflexivity]. destruct Hs as (evens & odds & root & -> & -> & Ho). cbn [opt_bind fst snd option_map].
    destruct (opens_lengths _ _ _ _ _ _ _ _ _ _ _ _ _ Ho) as [E1 E2]. exists evens, odds, (inl root). replace (d =? length evens + length odds)%nat with true by (symmetry; apply Nat.eqb_eq; rewrite E1, E2; symmetry; apply halves).
    cbn [guard t_is_even]. split; [reflexivity|]. split; [reflexivity|]. split; [exact Ho|]. split; assumption.
  - pose proof (node_witness_spec oc L M ti HL Hti d _ _ _ _ (odd_p prm) (even_p prm) n i Hw) as Hs. pose proof (fun c => walk_parity oc L M d _ _ _ _ _ _ n i c Hw) as Hk.
    destruct (walk oc L n i) as [[c|c]|]; [specialize (Hk _ eq_refl); cbn in Hk; congruence| |rewrite Hs; reflexivity]. destruct Hs as (odds & evens & root & -> & -> & Ho). cbn [opt_bind fst snd option_map].
    destruct (opens_lengths _ _ _ _ _ _ _ _ _ _ _ _ _ Ho) as [E1 E2]. exists evens, odds, (inr root). replace (d =? length evens + length odds)%nat with true by (symmetry; apply Nat.eqb_eq; rewrite E1, E2, Nat.add_comm; symmetry; apply halves).
    cbn [guard t_is_even]. split; [reflexivity|]. split; [reflexivity|]. split; [exact Ho|]. split; assumption.
Qed.
Theorem C44_witness_path : forall (F0 F1 : PField) (P0 : SWCurve F1 F0) (P1 : SWCurve F0 F1) (L M : nat) (prm : SRParams P0 P1) (set : list P0) (fuel : nat) height t (oc : bool) (i ti : nat) leaf,
  from_set fuel L M prm set height = TOk t -> (N.of_nat (L ^ t_height t) < 2 ^ 64)%N -> (ti < M)%nat -> nth_error set i = Some leaf ->
  exists evens odds root, tree_witness oc L t (N.of_nat i) ti prm = Some (evens, odds) /\ t_commitment t ti = Some root /\
    t_opens L ti (t_height t) prm root evens odds leaf /\
    length evens = (if t_is_even t then (t_height t + 1) / 2 else t_height t / 2)%nat /\ length odds = (if t_is_even t then t_height t / 2 else (t_height t + 1) / 2)%nat.
Proof.
  intros F0 F1 P0 P1 L M prm set fuel height t oc i ti leaf H Hc Hti Hleaf. destruct (from_set_ok _ _ _ _ _ _ _ H) as (HL & d & Hd & _). rewrite (tree_ok_height _ _ _ _ _ _ Hd) in *.
  pose proof (tree_witness_spec oc L M ti d prm set t (N.of_nat i) HL Hti Hd) as Hs. assert (Hi : (i < length set)%nat) by (apply nth_error_Some; rewrite Hleaf; discriminate).
  rewrite (tree_ok_walk oc L M prm d set t _ HL Hc Hd), (index_small L d set i Hi), Hleaf in Hs by (apply (tree_ok_le _ _ _ _ _ _ HL Hd)). unfold next_length in Hs. replace (d + 2 - 1)%nat with (d + 1)%nat in Hs by lia. exact Hs.
Qed.
Print Assumptions C44_witness_path.

(** ** C45: indices out of range *)
(** Indices between the number of leaves and the capacity are rejected. *)
Theorem C45_out_of_range_partial : forall (F0 F1 : PField) (P0 : SWCurve F1 F0) (P1 : SWCurve F0 F1) (L M : nat) (prm : SRParams P0 P1) (set : list P0) (fuel : nat) height t (oc : bool) (i ti : nat),
  from_set fuel L M prm set height = TOk t -> (N.of_nat (L ^ t_height t) < 2 ^ 64)%N -> (ti < M)%nat -> (length set <= i < L ^ t_height t)%nat -> tree_witness oc L t (N.of_nat i) ti prm = None.
Proof.
  intros F0 F1 P0 P1 L M prm set fuel height t oc i ti H Hc Hti Hi. destruct (from_set_ok _ _ _ _ _ _ _ H) as (HL & d & Hd & _). rewrite (tree_ok_height _ _ _ _ _ _ Hd) in *.
  pose proof (tree_witness_spec oc L M ti d prm set t (N.of_nat i) HL Hti Hd) as Hs. rewrite (tree_ok_walk oc L M prm d set t _ HL Hc Hd) in Hs.
  rewrite N.mod_small, Nat2N.id in Hs by lia. destruct (nth_error set i) eqn:E; [|exact Hs]. assert (i < length set)%nat by (apply nth_error_Some; rewrite E; discriminate). lia.
Qed.
(** The property is false for indices beyond the capacity: they silently denote the
    leaf at the index modulo the capacity. *)
Theorem C45_alias_refuted : forall (F0 F1 : PField) (P0 : SWCurve F1 F0) (P1 : SWCurve F0 F1) (L M : nat) (prm : SRParams P0 P1) (set : list P0) (fuel : nat) height t (oc : bool) (i ti k : nat) leaf,
  from_set fuel L M prm set height = TOk t -> (N.of_nat (L ^ t_height t) < 2 ^ 64)%N -> (ti < M)%nat -> nth_error set i = Some leaf ->
  exists evens odds root, tree_witness oc L t (N.of_nat (i + k * L ^ t_height t)) ti prm = Some (evens, odds) /\ t_commitment t ti = Some root /\ t_opens L ti (t_height t) prm root evens odds leaf.
Proof.
  intros F0 F1 P0 P1 L M prm set fuel height t oc i ti k leaf H Hc Hti Hleaf. destruct (from_set_ok _ _ _ _ _ _ _ H) as (HL & d & Hd & _). rewrite (tree_ok_height _ _ _ _ _ _ Hd) in *.
  pose proof (tree_witness_spec oc L M ti d prm set t (N.of_nat (i + k * L ^ d)) HL Hti Hd) as Hs. assert (Hi : (i < length set)%nat) by (apply nth_error_Some; rewrite Hleaf; discriminate).
  rewrite (tree_ok_walk oc L M prm d set t _ HL Hc Hd) in Hs. pose proof (tree_ok_le _ _ _ _ _ _ HL Hd) as Hle. pose proof (pow_pos L d HL) as Hk. rewrite N2Nat.inj_mod, !Nat2N.id, Nat.mod_add, Nat.mod_small, Hleaf in Hs by lia.
  destruct Hs as (evens & odds & root & H1 & H2 & H3 & _). eauto 6.
Qed.
Print Assumptions C45_out_of_range_partial.
Print Assumptions C45_alias_refuted.

(** ** C46: termination *)
(** For L >= 2 and L = 0 the construction ends (in a tree or a panic) within as many
    rounds as there are leaves and requested levels. *)
Theorem C46_terminates_partial : forall (F0 F1 : PField) (P0 : SWCurve F1 F0) (P1 : SWCurve F0 F1) (L M : nat) (prm : SRParams P0 P1) (set : list P0) height (fuel : nat),
  L <> 1%nat -> (length set < fuel)%nat -> (match height with Some h => h < fuel | None => True end)%nat -> from_set fuel L M prm set height <> TFuel.
Proof.
  intros F0 F1 P0 P1 L M prm set height fuel HL Hf Hh. unfold from_set. destruct (Nat.eqb_spec (length set) 0) as [|Hs]; [discriminate|]. destruct (Nat.eqb_spec L 0) as [|HL0]; [discriminate|]. cbn [orb].
  pose proof (from_loop_fuel L M prm ltac:(lia) fuel (map Leaf set) (length set) Hf) as N1. destruct (from_loop _ _ _ _ _ _ _) as [t| |]; [|discriminate|congruence].
  destruct height as [h|]; cbn [increase_height]; [|discriminate]. apply increase_loop_fuel. lia.
Qed.
(** For L = 1 and at least two leaves it never ends: no number of rounds suffices. *)
Theorem C46_unary_diverges_refuted : forall (F0 F1 : PField) (P0 : SWCurve F1 F0) (P1 : SWCurve F0 F1) (M : nat) (prm : SRParams P0 P1) (set : list P0) height (fuel : nat),
  (2 <= length set)%nat -> enough_gens 1 M (even_p prm) -> enough_gens 1 M (odd_p prm) -> from_set fuel 1 M prm set height = TFuel.
Proof.
  intros F0 F1 P0 P1 M prm set height fuel Hs He Ho. unfold from_set. destruct (Nat.eqb_spec (length set) 0) as [|_]; [lia|]. change (1 =? 0)%nat with false. cbn [orb].
  assert (Hne : set <> []) by (intros ->; cbn in Hs; lia).
  pose proof (from_loop_total 1 M prm set ltac:(lia) Hne He Ho fuel 0 (map Leaf set) (leaves_inv 1 M prm set)) as N2. rewrite map_length in N2.
  destruct (from_loop _ _ _ _ _ _ _) as [t| |] eqn:E; [|congruence|reflexivity]. exfalso. rewrite <- (map_length (Leaf (B := P1)) set) in E.
  destruct (from_loop_ok 1 M prm set ltac:(lia) Hne fuel 0 (map Leaf set) eq_refl (leaves_inv 1 M prm set) ltac:(lia) t E) as (d & _ & Hm & _). rewrite Nat.pow_1_l in Hm. lia.
Qed.
Print Assumptions C46_terminates_partial.
Print Assumptions C46_unary_diverges_refuted.

(** ** The hypotheses are satisfiable: the toy cycle *)
Definition toy_bp1 : BPGens TC1 := toy_gens PM139 8 1.
(* test data or vocabulary of statements, no code modelled *)
Definition toy_pcg1 : PedersenGens TC1 := toy_pc PM139.
(* test data or vocabulary of statements, no code modelled *)
Definition k139 (z : Z) : TC1 := fp_mk (p:=PM139) z.
(* test data or vocabulary of statements, no code modelled *)
Definition toy_delta1 : TC1 := k139 11.
Lemma toy_sl1 : exists sl, sl_new toy_bp1 toy_pcg1 toy_delta1 = Some sl.
Proof.
  assert (H : is_some (build_tables (pcB_blinding toy_pcg1)) = true) by (vm_compute; reflexivity). unfold sl_new. destruct (build_tables (pcB_blinding toy_pcg1)) as [ts|]; [cbn [opt_bind]; eauto|discriminate].
Qed.
(** Parameters made by [sl_new] on both curves; 8 generators. *)
Definition toy_params (prm : SRParams TC0 TC1) : Prop := sl_new toy_bp toy_pcg toy_delta = Some (even_p prm) /\ sl_new toy_bp1 toy_pcg1 toy_delta1 = Some (odd_p prm).
Lemma toy_params_ex : exists prm, toy_params prm.
Proof. destruct toy_sl as (s0 & H0), toy_sl1 as (s1 & H1). exists (mkSRP s0 s1). split; assumption. Qed.
Lemma toy_enough prm : toy_params prm -> forall L M, (L * M <= 8)%nat -> enough_gens L M (even_p prm) /\ enough_gens L M (odd_p prm).
Proof.
  intros [H0 H1] L M H. destruct (sl_new_good _ _ _ _ H0) as (_ & E0 & _), (sl_new_good _ _ _ _ H1) as (_ & E1 & _). unfold enough_gens. rewrite E0, E1.
  assert (G0 : exists G, nth_error (G_vec toy_bp) 0 = Some G /\ length G = 8%nat). { assert (C : match nth_error (G_vec toy_bp) 0 with Some G => Nat.eqb (length G) 8 | None => false end = true) by (vm_compute; reflexivity). destruct (nth_error (G_vec toy_bp) 0) as [G|]; [|discriminate]. apply Nat.eqb_eq in C. eauto. }
  assert (G1 : exists G, nth_error (G_vec toy_bp1) 0 = Some G /\ length G = 8%nat). { assert (C : match nth_error (G_vec toy_bp1) 0 with Some G => Nat.eqb (length G) 8 | None => false end = true) by (vm_compute; reflexivity). destruct (nth_error (G_vec toy_bp1) 0) as [G|]; [|discriminate]. apply Nat.eqb_eq in C. eauto. }
  destruct G0 as (g0 & I0 & J0), G1 as (g1 & I1 & J1). split; [exists g0|exists g1]; split; try assumption; lia.
Qed.
(** Five leaves, L = 2, M = 2. *)
Definition toy_set : list TC0 := map k163 [20; 31; 42; 53; 64]%Z.
Example C41_demo : exists prm t, toy_params prm /\ from_set 6 2 2 prm toy_set None = TOk t /\ t_height t = 3%nat /\ t_is_even t = false /\ t_elements t = 5%nat /\
  (forall oc, t_walk oc 2 t 3 = Some (k163 53)) /\ t_well_committed 2 2 prm t.
Proof.
  destruct toy_params_ex as (prm & Hp). destruct (toy_enough prm Hp 2 2 ltac:(lia)) as [He Ho].
  destruct (C41_from_set _ _ _ _ 2 2 prm toy_set 6 true ltac:(lia) ltac:(discriminate) He Ho ltac:(cbn; lia)) as (t & h & Ht & Eh & Hle & Hmin & Hev & Hel & _).
  assert (E3 : h = 3%nat). { change (length toy_set) with 5%nat in Hle, Hmin. destruct (Nat.lt_trichotomy h 3) as [Hl|[E|Hl]]; [|exact E|specialize (Hmin 3%nat Hl); cbn in Hmin; lia]. destruct h as [|[|[|h]]]; cbn in Hle; lia. }
  subst h. exists prm, t. split; [exact Hp|]. split; [exact Ht|]. split; [exact E3|]. rewrite E3 in Hev. split; [exact Hev|]. split; [exact Hel|]. split; [|exact (C43_well_committed _ _ _ _ _ _ _ _ _ _ _ Ht)].
  intros oc. destruct (C41_from_set _ _ _ _ 2 2 prm toy_set 6 oc ltac:(lia) ltac:(discriminate) He Ho ltac:(cbn; lia)) as (t' & h' & Ht' & Eh' & _ & _ & _ & _ & Hw). rewrite Ht in Ht'. injection Ht' as <-.
  rewrite <- Eh', E3 in Hw. exact (Hw ltac:(vm_compute; reflexivity) 3%nat ltac:(cbn; lia)).
Qed.
(** The same tree raised to height 5; its index 3 still denotes the leaf 53. *)
Example C42_demo : exists prm t t', toy_params prm /\ from_set 6 2 2 prm toy_set None = TOk t /\ increase_height 6 2 2 prm t (Some 5%nat) = TOk t' /\ t_height t' = 5%nat /\
  t_elements t' = 5%nat /\ t_walk true 2 t' 3 = Some (k163 53).
Proof.
  destruct C41_demo as (prm & t & Hp & Ht & Eh & Hev & Hel & Hw & _). destruct (toy_enough prm Hp 2 2 ltac:(lia)) as [He Ho]. exists prm, t.
  destruct (C42_increase_height_partial _ _ _ _ 2 2 prm toy_set 6 6 5 None t true Ht He Ho ltac:(lia)) as (t' & Ht' & Eh' & _ & Hel' & Hw'). rewrite Eh in Eh'. change (Nat.max 5 3) with 5%nat in Eh'. exists t'.
  rewrite Eh' in Hw'. split; [exact Hp|]. split; [exact Ht|]. split; [exact Ht'|]. split; [exact Eh'|]. split; [rewrite Hel'; exact Hel|]. exact (Hw' ltac:(vm_compute; reflexivity) 3%nat ltac:(cbn; lia)).
Qed.
Example C42_tall_demo : exists prm t t', toy_params prm /\ from_set 65 2 2 prm toy_set None = TOk t /\ increase_height 65 2 2 prm t (Some 64%nat) = TOk t' /\ forall oc, t_walk oc 2 t' 3 = None.
Proof.
  destruct toy_params_ex as (prm & Hp). destruct (toy_enough prm Hp 2 2 ltac:(lia)) as [He Ho].
  destruct (C41_from_set _ _ _ _ 2 2 prm toy_set 65 true ltac:(lia) ltac:(discriminate) He Ho ltac:(cbn; lia)) as (t & h & Ht & Eh & Hle & Hmin & _).
  assert (E3 : (h <= 64)%nat). { change (length toy_set) with 5%nat in Hmin. destruct (Nat.le_gt_cases h 64) as [Hl|Hl]; [exact Hl|]. specialize (Hmin 3%nat ltac:(lia)). cbn in Hmin. lia. }
  destruct (C42_increase_height_partial _ _ _ _ 2 2 prm toy_set 65 65 64 None t true Ht He Ho ltac:(lia)) as (t' & Ht' & _). exists prm, t, t'. split; [exact Hp|]. split; [exact Ht|]. split; [exact Ht'|].
  intros oc. eapply C42_tall_tree_refuted; [exact Ht|rewrite Eh; exact E3|exact Ht'].
Qed.
(** Index 3 has a witness, index 6 is rejected, index 3 + 8 aliases index 3. *)
Example C44_demo : exists prm t evens odds root, toy_params prm /\ from_set 6 2 2 prm toy_set None = TOk t /\ tree_witness true 2 t 3 1 prm = Some (evens, odds) /\ t_commitment t 1 = Some (inr root) /\
  length evens = 1%nat /\ length odds = 2%nat /\ opens 2 1 3 (odd_p prm) (even_p prm) root odds evens (inr (k163 53)) /\
  tree_witness true 2 t 6 1 prm = None /\ (exists evens' odds', tree_witness true 2 t 11 1 prm = Some (evens', odds')).
Proof.
  destruct C41_demo as (prm & t & Hp & Ht & Eh & Hev & _). exists prm, t.
  destruct (C44_witness_path _ _ _ _ 2 2 prm toy_set 6 None t true 3 1 (k163 53) Ht ltac:(rewrite Eh; vm_compute; reflexivity) ltac:(lia) eq_refl) as (evens & odds & root & Hw & Hr & Ho & E1 & E2).
  destruct (C45_alias_refuted _ _ _ _ 2 2 prm toy_set 6 None t true 3 1 1 (k163 53) Ht ltac:(rewrite Eh; vm_compute; reflexivity) ltac:(lia) eq_refl) as (evens' & odds' & root' & Hw' & _).
  pose proof (C45_out_of_range_partial _ _ _ _ 2 2 prm toy_set 6 None t true 6 1 Ht ltac:(rewrite Eh; vm_compute; reflexivity) ltac:(lia) ltac:(rewrite Eh; cbn; lia)) as Hn.
  rewrite Hev, Eh in *. exists evens, odds. destruct root as [root|root]; [destruct t; [discriminate|]; cbn [t_commitment] in Hr; destruct (n_commitment n 1); discriminate|]. exists root.
  split; [exact Hp|]. split; [exact Ht|]. split; [exact Hw|]. split; [exact Hr|]. split; [exact E1|]. split; [exact E2|]. split; [exact Ho|]. split; [exact Hn|]. exists evens', odds'. exact Hw'.
Qed.
Example C46_demo : exists prm, toy_params prm /\ (forall fuel, from_set fuel 1 1 prm toy_set None = TFuel) /\ (forall fuel, from_set fuel 0 1 prm toy_set None = TPanic).
Proof.
  destruct toy_params_ex as (prm & Hp). destruct (toy_enough prm Hp 1 1 ltac:(lia)) as [He Ho]. exists prm. split; [exact Hp|]. split; [|reflexivity].
  intros fuel. apply C46_unary_diverges_refuted; [cbn; lia|exact He|exact Ho].
Qed.
