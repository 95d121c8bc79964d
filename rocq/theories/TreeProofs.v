(** * Lemmas on trees *)
From Verif Require Export Tree SingleLevel.
From Verif Require Import UtilProofs.
From Coq Require Import Lia.
Local Open Scope F_scope.

(** ** Specification *)
Definition swap_sum {A B} (x : B + A) : A + B := match x with inl b => inr b | inr a => inl a end.
(** The leaf reached from [n] by following [child_index]. *)
Fixpoint walk {A B} (oc : bool) (L : nat) (n : Node A B) (index : N) : option (A + B) :=
  match n with
  | Leaf c => Some (inl c)
  | Branch _ children h _ => do k <- child_index oc L h index; at_child (fun c => option_map swap_sum (walk oc L c index)) children k
  end.
(** The [i]-th block of [k] elements. *)
Definition slice {A} (k i : nat) (l : list A) : list A := firstn k (skipn (i * k) l).
(** [n] is a tree of height [d] with leaves [l]: every child but the last has L^(d-1) leaves. *)
Fixpoint holds (L d : nat) {A B} (n : Node A B) (l : list (A + B)) : Prop :=
  match d, n with
  | O, Leaf c => l = [inl c]
  | S d', Branch _ cs h e => h = S d' /\ e = length l /\ (0 < length l <= L ^ S d')%nat /\
      exists children, cs = map Some children ++ repeat None (L - length children) /\ (length children <= L)%nat /\
        length children = next_length (L ^ d') (length l) /\
        forall i c, nth_error children i = Some c -> holds L d' c (map swap_sum (slice (L ^ d') i l))
  | _, _ => False
  end.
(** Value of a slot of the children vector. *)
Definition slot_value {F : Field} {S : PField} {C : SWCurve F S} {B} (delta : C) (j : nat) (o : option (Node C B)) (x : F) : Prop :=
  match o with
  | None => x = 0
  | Some c => exists P, n_commitment c j = Some P /\ x = match coords (vadd P delta) with Some xy => fst xy | None => 0 end
  end.
(** The commitment to [xs] without blinding, under the j-th block of generators. *)
Definition plain_commitment {F : Field} {S : PField} {C : SWCurve F S} (prm : SLParams C) (j : nat) (xs : list S) (c : C) : Prop :=
  exists G, nth_error (G_vec (sl_bp prm)) 0 = Some G /\ (length xs * (j + 1) <= length G)%nat /\ c = msm xs (slice (length xs) j G).
(** Every inner node of a tree of height [d] commits to its children. *)
Fixpoint well_committed (L M d : nat) {F0 F1 : PField} {P0 : SWCurve F1 F0} {P1 : SWCurve F0 F1} (prm0 : SLParams P0) (prm1 : SLParams P1) (n : Node P0 P1) : Prop :=
  match d, n with
  | O, Leaf _ => True
  | S d', Branch comms cs h _ => h = S d' /\ length comms = M /\ length cs = L /\
      (forall j c, nth_error comms j = Some c -> exists xs, Forall2 (slot_value (sl_delta prm1) j) cs xs /\ plain_commitment prm0 j xs c) /\
      forall c, In (Some c) cs -> well_committed L M d' prm1 prm0 c
  | _, _ => False
  end.
(** Enough generators for M vectors of length L. *)
Definition enough_gens {F : Field} {S : PField} {C : SWCurve F S} (L M : nat) (prm : SLParams C) : Prop :=
  exists G, nth_error (G_vec (sl_bp prm)) 0 = Some G /\ (L * M <= length G)%nat.

(** ** Arithmetic of blocks *)
Lemma next_length_le k n m : (0 < k)%nat -> (next_length k n <= m <-> n <= m * k)%nat.
Proof.
  intros Hk. unfold next_length. pose proof (Nat.div_mod (n + k - 1) k ltac:(lia)) as E. pose proof (Nat.mod_upper_bound (n + k - 1) k ltac:(lia)) as B. split; intros H; nia.
Qed.
Lemma next_length_unique k n m : (0 < k)%nat -> (forall x, (m <= x <-> n <= x * k)%nat) -> next_length k n = m.
Proof. intros Hk H. pose proof (proj1 (next_length_le k n (next_length k n) Hk) (le_n _)) as H1. apply H in H1. pose proof (proj1 (H m) (le_n _)) as H2. apply next_length_le in H2; [lia|exact Hk]. Qed.
Lemma next_length_0 k n : (0 < k)%nat -> next_length k n = 0%nat <-> n = 0%nat.
Proof. intros Hk. pose proof (next_length_le k n 0 Hk). lia. Qed.
Lemma next_length_next k L n : (0 < k)%nat -> (0 < L)%nat -> next_length L (next_length k n) = next_length (L * k) n.
Proof.
  intros Hk HL. symmetry. apply next_length_unique; [nia|]. intros x. rewrite next_length_le by exact HL. rewrite next_length_le by exact Hk. nia.
Qed.
Lemma pow_pos L d : (0 < L)%nat -> (0 < L ^ d)%nat.
Proof. intros H. induction d; cbn [Nat.pow]; nia. Qed.
Lemma slice_length {A} k i (l : list A) : length (slice k i l) = Nat.min k (length l - i * k).
Proof. unfold slice. rewrite firstn_length, skipn_length. reflexivity. Qed.
Lemma skipn_skipn2 {A} a b : forall l : list A, skipn a (skipn b l) = skipn (b + a) l.
Proof. induction b as [|b IH]; intros l; [reflexivity|]. destruct l; [rewrite !skipn_nil; reflexivity|]. cbn [skipn Nat.add]. apply IH. Qed.
Lemma slice_slice {A} k L i j (l : list A) : (j < L)%nat -> slice k j (slice (L * k) i l) = slice k (i * L + j) l.
Proof.
  intros Hj. unfold slice. rewrite skipn_firstn_comm, skipn_skipn2, firstn_firstn. f_equal; [nia|]. f_equal. nia.
Qed.
Lemma slice_all {A} k (l : list A) : (length l <= k)%nat -> slice k 0 l = l.
Proof. intros H. unfold slice. cbn [Nat.mul skipn]. apply firstn_all2. exact H. Qed.
Lemma slice_map {A B} (f : A -> B) k i l : slice k i (map f l) = map f (slice k i l).
Proof. unfold slice. rewrite skipn_map, firstn_map. reflexivity. Qed.
Lemma nth_error_skipn {A} (l : list A) i j : nth_error (skipn i l) j = nth_error l (i + j).
Proof. revert l. induction i as [|i IH]; intros l; [reflexivity|]. destruct l; [cbn; destruct j; reflexivity|]. cbn [skipn Nat.add nth_error]. apply IH. Qed.
Lemma nth_error_firstn {A} (l : list A) : forall n j, nth_error (firstn n l) j = if (j <? n)%nat then nth_error l j else None.
Proof.
  induction l as [|x l IH]; intros n j.
  - rewrite firstn_nil. destruct (j <? n)%nat, j; reflexivity.
  - destruct n; [destruct j; reflexivity|]. destruct j; [reflexivity|]. cbn [firstn nth_error]. rewrite IH. reflexivity.
Qed.
Lemma nth_error_slice {A} k i j (l : list A) : nth_error (slice k i l) j = if (j <? k)%nat then nth_error l (i * k + j) else None.
Proof. unfold slice. rewrite nth_error_firstn, nth_error_skipn. reflexivity. Qed.
Lemma forest_chunk_slice {A} L i (forest : list A) : forest_chunk L (length forest) i forest = slice L i forest.
Proof.
  unfold forest_chunk, slice. rewrite skipn_firstn_comm. replace ((i + 1) * L - i * L)%nat with L by nia. apply firstn_all2.
  rewrite firstn_length, skipn_length. lia.
Qed.
Lemma swap_swap {A B} (l : list (A + B)) : map swap_sum (map swap_sum l) = l.
Proof. induction l as [|[a|b] l IH]; cbn [map swap_sum]; rewrite ?IH; reflexivity. Qed.
Lemma all_some_spec {A} (l : list (option A)) r : all_some l = Some r <-> Forall2 (fun o a => o = Some a) l r.
Proof.
  revert r. induction l as [|o l IH]; intros r; cbn [all_some].
  - split; [intros H; apply Some_inj in H; subst; constructor|intros H; inversion H; reflexivity].
  - destruct o as [a|]; cbn [opt_bind].
    + destruct (all_some l) as [r'|]; cbn [opt_bind].
      * split.
        { intros H. apply Some_inj in H. subst r. constructor; [reflexivity|]. apply IH. reflexivity. }
        { intros H. inversion H as [|? b ? r0 E H0]; subst. apply IH in H0. congruence. }
      * split; [discriminate|]. intros H. inversion H as [|? b ? r0 E H0]; subst. apply IH in H0. discriminate.
    + split; [discriminate|]. intros H. inversion H. discriminate.
Qed.
Lemma all_some_total {A B} (f : A -> option B) l : (forall a, In a l -> exists b, f a = Some b) -> exists r, all_some (map f l) = Some r.
Proof.
  induction l as [|a l IH]; intros H; [exists []; reflexivity|]. destruct (H a (or_introl eq_refl)) as (b & Hb). destruct IH as (r & Hr); [intros x Hx; apply H; right; exact Hx|].
  exists (b :: r). cbn [map all_some]. rewrite Hb, Hr. reflexivity.
Qed.
Lemma all_some_nth {A B} (f : A -> option B) l r : all_some (map f l) = Some r -> length r = length l /\ (forall i b, nth_error r i = Some b -> exists a, nth_error l i = Some a /\ f a = Some b).
Proof.
  revert r. induction l as [|a l IH]; intros r; cbn [map all_some].
  - intros H. apply Some_inj in H. subst r. split; [reflexivity|]. intros [|i] b H; discriminate H.
  - destruct (f a) as [b|] eqn:Ef; [|discriminate]. cbn [opt_bind]. destruct (all_some (map f l)) as [r'|]; [|discriminate]. cbn [opt_bind]. intros H. apply Some_inj in H. subst r.
    destruct (IH r' eq_refl) as [I1 I2]. split; [cbn [length]; rewrite I1; reflexivity|]. intros [|i] b' H; cbn [nth_error] in H |- *; [exists a; split; congruence|apply I2; exact H].
Qed.
Lemma at_child_spec {A R} (f : A -> option R) : forall l k, at_child f l k = match nth_error l k with Some (Some c) => f c | _ => None end.
Proof. induction l as [|x l IH]; intros [|k]; cbn [at_child nth_error]; try (destruct x; reflexivity); try reflexivity; apply IH. Qed.

(** ** Structure *)
Lemma holds_height {A B} L d (n : Node A B) l : holds L d n l -> n_height n = d.
Proof. destruct d, n; cbn [holds n_height]; intros H; try contradiction; [reflexivity|]. destruct H as (H & _). exact H. Qed.
Lemma holds_elements {A B} L d (n : Node A B) l : holds L d n l -> n_elements n = length l.
Proof. destruct d, n; cbn [holds n_elements]; intros H; try contradiction; [subst; reflexivity|destruct H as (_ & H & _); exact H]. Qed.
Lemma sum_slices {A B} (L d : nat) : (0 < L)%nat -> forall (children : list (Node B A)) (l : list (A + B)) e,
  length children = next_length (L ^ d) (length l) -> (forall i c, nth_error children i = Some c -> holds L d c (map swap_sum (slice (L ^ d) i l))) ->
  fold_left (fun e c => (e + n_elements c)%nat) children e = (e + length l)%nat.
Proof.
  intros HL. pose proof (pow_pos L d HL) as Hk. set (k := (L ^ d)%nat) in *. induction children as [|c children IH]; intros l e Hlen H; cbn [fold_left].
  - symmetry in Hlen. cbn [length] in Hlen. apply next_length_0 in Hlen; [lia|exact Hk].
  - assert (Hn : (0 < length l)%nat). { destruct (length l) eqn:E; [|lia]. cbn [length] in Hlen. pose proof (proj2 (next_length_0 k 0 Hk) eq_refl). lia. }
    rewrite (IH (skipn k l)).
    + rewrite (holds_elements L d c (map swap_sum (slice k 0 l))) by (apply H; reflexivity). rewrite map_length, slice_length, skipn_length. lia.
    + rewrite skipn_length. cbn [length] in Hlen. symmetry. apply next_length_unique; [exact Hk|]. intros x. pose proof (next_length_le k (length l) (S x) Hk). lia.
    + intros i c' Hi. replace (slice k i (skipn k l)) with (slice k (S i) l) by (unfold slice; rewrite skipn_skipn2; reflexivity). apply H. exact Hi.
Qed.

Section TP.
  Context {F0 F1 : PField} {P0 : SWCurve F1 F0} {P1 : SWCurve F0 F1}.
  Implicit Types (L M d : nat).

  Lemma combine_holds L M d (children : list (Node P1 P0)) (prm : SLParams P0) delta n (l : list (P0 + P1)) : (0 < L)%nat ->
    node_combine L M children prm delta = Some n -> length children = next_length (L ^ d) (length l) -> (0 < length l <= L ^ S d)%nat ->
    (forall i c, nth_error children i = Some c -> holds L d c (map swap_sum (slice (L ^ d) i l))) -> holds L (S d) n l.
  Proof.
    intros HL H Hlen Hl Hc. pose proof (pow_pos L d HL) as Hk. unfold node_combine in H. destruct (Nat.ltb_spec L (length children)) as [|HLc]; [discriminate|]. cbv zeta in H.
    destruct (nth_error _ 0) as [c0|] eqn:E0; [|discriminate]. cbn [opt_bind] in H. destruct (all_some _) as [comms|]; [|discriminate]. cbn [opt_bind] in H. apply Some_inj in H. subst n.
    destruct children as [|c children].
    { cbn [length] in Hlen. symmetry in Hlen. apply next_length_0 in Hlen; [|exact Hk]. lia. }
    cbn [map app nth_error] in E0. apply Some_inj in E0. subst c0. cbn [holds]. split; [rewrite (holds_height L d c _ (Hc 0%nat c eq_refl)); lia|].
    split; [rewrite (sum_slices L d HL (c :: children) l 0 Hlen Hc); reflexivity|]. split; [exact Hl|]. exists (c :: children). auto.
  Qed.

  Lemma sl_commit_plain (prm : SLParams P0) xs j : (0 < length xs)%nat -> forall c, sl_commit prm xs 0 j = Some c -> plain_commitment prm j xs c.
  Proof.
    intros Hx c. unfold sl_commit, share_G. destruct (nth_error (G_vec (sl_bp prm)) 0) as [G|] eqn:HG; [|discriminate]. cbn [option_map opt_bind]. unfold guard.
    destruct (Nat.eqb_spec (length (pcB_blinding (sl_pc prm) :: skipn (length xs * j) (firstn (length xs * (j + 1)) G))) (length ((0 : F0) :: xs))) as [El|]; [|discriminate].
    intros H. apply Some_inj in H. subst c. cbn [length] in El. rewrite skipn_length, firstn_length in El. exists G. split; [exact HG|]. split; [nia|]. cbn [msm]. rewrite vsmul_0_l, vadd_0_l.
    unfold slice. rewrite skipn_firstn_comm. f_equal. f_equal; [nia|]. f_equal. lia.
  Qed.
  Lemma sl_commit_total L M (prm : SLParams P0) xs b j : enough_gens L M prm -> length xs = L -> (j < M)%nat -> exists c, sl_commit prm xs b j = Some c.
  Proof.
    intros (G & HG & Hl) Hx Hj. unfold sl_commit, share_G. rewrite HG. cbn [option_map opt_bind]. unfold guard. cbn [length]. rewrite skipn_length, firstn_length.
    replace (Nat.eqb _ _) with true; [eauto|]. symmetry. apply Nat.eqb_eq. nia.
  Qed.
  Lemma x_coordinates_spec (cs : list (option (Node P1 P0))) delta j xs : x_coordinates cs delta j = Some xs -> Forall2 (slot_value delta j) cs xs.
  Proof.
    unfold x_coordinates. intros H. apply all_some_spec in H. revert xs H. induction cs as [|o cs IH]; intros xs H; cbn [map] in H; inversion H as [|? x ? xs' E H0]; subst; constructor; [|apply IH; exact H0].
    destruct o as [c|]; cbn [slot_value]; [|congruence]. destruct (n_commitment c j) as [P|]; [|discriminate]. exists P. split; [reflexivity|]. cbn [option_map] in E. apply Some_inj in E. subst x.
    unfold raw_xy. destruct (coords _) as [[x y]|]; reflexivity.
  Qed.
  Lemma x_coordinates_total (cs : list (option (Node P1 P0))) delta j : (forall c, In (Some c) cs -> exists P, n_commitment c j = Some P) -> exists xs, x_coordinates cs delta j = Some xs.
  Proof.
    intros H. unfold x_coordinates. apply all_some_total. intros [c|] Hin; [|eauto]. destruct (H c Hin) as (P & HP). rewrite HP. cbn [option_map]. eauto.
  Qed.
  Lemma wc_commitment L M d (prm0 : SLParams P0) (prm1 : SLParams P1) (n : Node P0 P1) j : (j < M)%nat -> well_committed L M d prm0 prm1 n -> exists P, n_commitment n j = Some P.
  Proof.
    intros Hj H. destruct n as [comms cs h e|c]; [|exists c; reflexivity]. destruct d; [contradiction|]. cbn [well_committed] in H. destruct H as (_ & H & _). cbn [n_commitment].
    destruct (nth_error comms j) as [P|] eqn:E; [eauto|]. apply nth_error_None in E. lia.
  Qed.
  Lemma in_children {A} (children : list A) n c : In (Some c) (map Some children ++ repeat None n) <-> In c children.
  Proof.
    rewrite in_app_iff, in_map_iff. split.
    - intros [(x & E & H)|H]; [injection E as ->; exact H|]. apply repeat_spec in H. discriminate.
    - intros H. left. eauto.
  Qed.
  Lemma combine_wc L M d (children : list (Node P1 P0)) (prm0 : SLParams P0) (prm1 : SLParams P1) n : (0 < L)%nat ->
    node_combine L M children prm0 (sl_delta prm1) = Some n -> children <> [] -> (forall c, In c children -> well_committed L M d prm1 prm0 c) -> (forall c, In c children -> n_height c = d) ->
    well_committed L M (S d) prm0 prm1 n.
  Proof.
    intros HL H Hne Hc Hh. unfold node_combine in H. destruct (Nat.ltb_spec L (length children)) as [|HLc]; [discriminate|]. cbv zeta in H.
    destruct (nth_error _ 0) as [c0|] eqn:E0; [|discriminate]. cbn [opt_bind] in H. destruct (all_some _) as [comms|] eqn:EC; [|discriminate]. cbn [opt_bind] in H. apply Some_inj in H. subst n.
    destruct children as [|c children]; [congruence|]. cbn [map app nth_error] in E0. apply Some_inj in E0. subst c0. cbn [well_committed].
    split; [rewrite (Hh c (or_introl eq_refl)); lia|]. apply all_some_nth in EC as [E1 E2]. rewrite seq_length in E1. split; [exact E1|].
    assert (Hlen : length (map Some (c :: children) ++ repeat None (L - length (c :: children))) = L) by (rewrite app_length, map_length, repeat_length; cbn [length] in *; lia).
    split; [exact Hlen|]. split.
    - intros j P HP. destruct (E2 j P HP) as (ti & Hti & HPc). assert (ti = j).
      { assert (Hj : (j < M)%nat) by (rewrite <- (seq_length M 0); apply nth_error_Some; rewrite Hti; discriminate). rewrite (nth_error_nth' _ 0%nat) in Hti by (rewrite seq_length; exact Hj). apply Some_inj in Hti. rewrite seq_nth in Hti by exact Hj. lia. }
      subst ti. destruct (x_coordinates _ (sl_delta prm1) j) as [xs|] eqn:EX; [|discriminate]. cbn [opt_bind] in HPc. apply x_coordinates_spec in EX. exists xs. split; [exact EX|].
      apply sl_commit_plain; [|exact HPc]. assert (El : length xs = L) by (rewrite <- Hlen; symmetry; clear - EX; induction EX; cbn [length]; congruence). lia.
    - intros x Hx. apply in_children in Hx. apply Hc, Hx.
  Qed.
  Lemma combine_total L M d (children : list (Node P1 P0)) (prm0 : SLParams P0) (prm1 : SLParams P1) : (0 < L)%nat -> enough_gens L M prm0 ->
    (length children <= L)%nat -> (forall c, In c children -> well_committed L M d prm1 prm0 c) -> exists n, node_combine L M children prm0 (sl_delta prm1) = Some n.
  Proof.
    intros HL Hg Hlen Hc. unfold node_combine. destruct (Nat.ltb_spec L (length children)) as [|_]; [lia|]. cbv zeta.
    assert (Hl : length (map Some children ++ repeat None (L - length children)) = L) by (rewrite app_length, map_length, repeat_length; lia).
    destruct (nth_error _ 0) as [c0|] eqn:E0; [|apply nth_error_None in E0; lia]. cbn [opt_bind].
    destruct (all_some_total (fun ti => do xs <- x_coordinates (map Some children ++ repeat None (L - length children)) (sl_delta prm1) ti; sl_commit prm0 xs 0 ti) (seq 0 M)) as (comms & ->); [|cbn [opt_bind]; eauto].
    intros j Hj. apply in_seq in Hj. destruct (x_coordinates_total (map Some children ++ repeat None (L - length children)) (sl_delta prm1) j) as (xs & EX).
    - intros c Hin. apply in_children in Hin. clear - Hc Hin Hj. specialize (Hc c Hin). destruct c as [comms cs h e|c]; [|exists c; reflexivity]. destruct d; [contradiction|]. cbn [well_committed] in Hc. destruct Hc as (_ & H & _). cbn [n_commitment].
      destruct (nth_error comms j) as [P|] eqn:E; [eauto|]. apply nth_error_None in E. lia.
    - rewrite EX. cbn [opt_bind]. apply (sl_commit_total L M); [exact Hg| |lia]. apply x_coordinates_spec in EX. rewrite <- Hl. clear - EX. induction EX; cbn [length]; congruence.
  Qed.

  (** ** One level *)
  Definition forest_inv L M d (prm0 : SLParams P0) (prm1 : SLParams P1) (forest : list (Node P0 P1)) (l : list (P0 + P1)) : Prop :=
    length forest = next_length (L ^ d) (length l) /\
    forall i n, nth_error forest i = Some n -> holds L d n (slice (L ^ d) i l) /\ well_committed L M d prm0 prm1 n.
End TP.

Section TP2.
  Context {F0 F1 : PField} {P0 : SWCurve F1 F0} {P1 : SWCurve F0 F1}.
  Implicit Types (L M d : nat).
  Lemma combine_forest_inv L M d (forest : list (Node P1 P0)) (prm0 : SLParams P0) (prm1 : SLParams P1) (l : list (P1 + P0)) forest' : (0 < L)%nat -> l <> [] ->
    forest_inv L M d prm1 prm0 forest l ->
    combine_forest L M (length forest) (next_length L (length forest)) forest prm0 (sl_delta prm1) = Some forest' -> forest_inv L M (S d) prm0 prm1 forest' (map swap_sum l).
  Proof.
    intros HL Hne [H1 H2] H. pose proof (pow_pos L d HL) as Hk. unfold combine_forest in H. apply all_some_nth in H as [E1 E2]. rewrite seq_length in E1.
    split; [rewrite E1, map_length, H1; cbn [Nat.pow]; apply next_length_next; assumption|].
    intros i n Hn. destruct (E2 i n Hn) as (j & Hj & Hc). assert (Hi : (i < next_length L (length forest))%nat) by (rewrite <- (seq_length (next_length L (length forest)) 0); apply nth_error_Some; rewrite Hj; discriminate).
    assert (j = i). { rewrite (nth_error_nth' _ 0%nat) in Hj by (rewrite seq_length; exact Hi). apply Some_inj in Hj. rewrite seq_nth in Hj by exact Hi. lia. }
    subst j. rewrite forest_chunk_slice in Hc.
    assert (Hlt : (i * L < length forest)%nat). { pose proof (next_length_le L (length forest) i HL). lia. }
    assert (Hlt2 : (i * L * L ^ d < length l)%nat). { rewrite H1 in Hlt. pose proof (next_length_le (L ^ d) (length l) (i * L) Hk). lia. }
    assert (Hs : (0 < length (slice (L ^ S d) i (map swap_sum l)) <= L ^ S d)%nat). { rewrite slice_length, map_length. cbn [Nat.pow]. pose proof (pow_pos L (S d) HL) as Hp. cbn [Nat.pow] in Hp. nia. }
    assert (Hch : forall j c, nth_error (slice L i forest) j = Some c -> holds L d c (slice (L ^ d) (i * L + j) l) /\ well_committed L M d prm1 prm0 c /\ (j < L)%nat).
    { intros j c Hjc. rewrite nth_error_slice in Hjc. destruct (Nat.ltb_spec j L) as [Hjl|]; [|discriminate]. destruct (H2 _ _ Hjc). auto. }
    split.
    - eapply combine_holds; [exact HL|exact Hc| |exact Hs|].
      + rewrite !slice_length, map_length. symmetry. apply next_length_unique; [exact Hk|]. intros x. rewrite H1. cbn [Nat.pow].
        assert (Q : (next_length (L ^ d) (length l) <= i * L + x <-> length l <= (i * L + x) * L ^ d)%nat) by (apply next_length_le; exact Hk). nia.
      + intros j c Hjc. destruct (Hch j c Hjc) as (C1 & _ & C3). cbn [Nat.pow]. rewrite slice_slice by exact C3. rewrite slice_map, swap_swap. exact C1.
    - eapply combine_wc; [exact HL|exact Hc| | |].
      + intros E. apply (f_equal (@length _)) in E. rewrite slice_length in E. cbn [length] in E. lia.
      + intros c Hin. apply In_nth_error in Hin as (j & Hjc). apply (Hch j c Hjc).
      + intros c Hin. apply In_nth_error in Hin as (j & Hjc). destruct (Hch j c Hjc) as (C1 & _). exact (holds_height _ _ _ _ C1).
  Qed.
  Lemma combine_forest_total L M d (forest : list (Node P1 P0)) (prm0 : SLParams P0) (prm1 : SLParams P1) (l : list (P1 + P0)) nl : (0 < L)%nat -> enough_gens L M prm0 ->
    forest_inv L M d prm1 prm0 forest l -> exists forest', combine_forest L M (length forest) nl forest prm0 (sl_delta prm1) = Some forest'.
  Proof.
    intros HL Hg [_ H2]. apply all_some_total. intros i _. rewrite forest_chunk_slice. apply (combine_total L M d); [exact HL|exact Hg|rewrite slice_length; lia|].
    intros c Hin. apply In_nth_error in Hin as (j & Hj). rewrite nth_error_slice in Hj. destruct (j <? L)%nat; [|discriminate]. apply (H2 _ _ Hj).
  Qed.
  Lemma forest_one L M d (prm0 : SLParams P0) (prm1 : SLParams P1) (forest : list (Node P0 P1)) l n : (0 < L)%nat -> forest_inv L M d prm0 prm1 forest l -> length forest = 1%nat -> nth_error forest 0 = Some n ->
    holds L d n l /\ well_committed L M d prm0 prm1 n /\ (length l <= L ^ d)%nat.
  Proof.
    intros HL [H1 H2] Hlen Hn. destruct (H2 _ _ Hn) as [I1 I2]. assert (Hl : (length l <= L ^ d)%nat). { pose proof (proj1 (next_length_le (L ^ d) (length l) 1 (pow_pos L d HL))). lia. }
    rewrite slice_all in I1 by exact Hl. auto.
  Qed.
End TP2.

Section TP3.
  Context {F0 F1 : PField} {P0 : SWCurve F1 F0} {P1 : SWCurve F0 F1}.
  Implicit Types (L M d : nat) (prm : SRParams P0 P1).

  (** A finished tree of height [d] over the leaves [set]. *)
  Definition tree_ok L M prm d (set : list P0) (t : CurveTree P0 P1) : Prop :=
    match t with
    | TEven n => Nat.even d = true /\ holds L d n (map inl set) /\ well_committed L M d (even_p prm) (odd_p prm) n
    | TOdd n => Nat.even d = false /\ holds L d n (map inr set) /\ well_committed L M d (odd_p prm) (even_p prm) n
    end.
  (* vocabulary of specifications and proofs, no code modelled *)
  Definition minimal L d (n : nat) : Prop := (n <= L ^ d)%nat /\ (forall e, (e < d)%nat -> (L ^ e < n)%nat).

  Lemma minimal_step L d n : (0 < L)%nat -> (forall e, (e < d)%nat -> (L ^ e < n)%nat) -> (1 < next_length (L ^ d) n)%nat -> (forall e, (e < S d)%nat -> (L ^ e < n)%nat).
  Proof. intros HL H H1 e He. pose proof (next_length_le (L ^ d) n 1 (pow_pos L d HL)). destruct (Nat.eq_dec e d) as [->|]; [lia|apply H; lia]. Qed.
  Lemma swap_inl (set : list P0) : map (swap_sum (A := P1) (B := P0)) (map inl set) = map inr set. Proof. rewrite map_map. reflexivity. Qed.
  Lemma swap_inr (set : list P0) : map (swap_sum (A := P0) (B := P1)) (map inr set) = map inl set. Proof. rewrite map_map. reflexivity. Qed.

  Lemma from_loop_ok L M prm set : (0 < L)%nat -> set <> [] -> forall fuel d forest, Nat.even d = true -> forest_inv L M d (even_p prm) (odd_p prm) forest (map inl set) ->
    (forall e, (e < d)%nat -> (L ^ e < length set)%nat) -> forall t,
    from_loop fuel L M prm forest (length forest) (next_length L (length forest)) = TOk t -> exists d', tree_ok L M prm d' set t /\ minimal L d' (length set).
  Proof.
    intros HL Hne. assert (Hn0 : (0 < length set)%nat) by (destruct set; [congruence|cbn [length]; lia]).
    induction fuel as [|fuel IH]; intros d forest Hd HF Hmin t H; cbn [from_loop] in H; [discriminate|].
    pose proof (proj1 HF) as Hlf. rewrite map_length in Hlf. assert (Hf0 : length forest <> 0%nat) by (rewrite Hlf; pose proof (next_length_0 (L ^ d) (length set) (pow_pos L d HL)); lia).
    destruct (Nat.leb_spec (length forest) 1) as [H1|H1].
    - destruct (nth_error forest 0) as [n|] eqn:En; [|discriminate]. injection H as <-. destruct (forest_one _ _ _ _ _ _ _ _ HL HF ltac:(lia) En) as (I1 & I2 & I3). rewrite map_length in I3.
      exists d. split; [cbn [tree_ok]; auto|split; assumption].
    - destruct (combine_forest L M (length forest) (next_length L (length forest)) forest (odd_p prm) (sl_delta (even_p prm))) as [odd|] eqn:EO; [|discriminate]. cbv zeta in H.
      assert (Hmin' : forall e, (e < S d)%nat -> (L ^ e < length set)%nat) by (apply minimal_step; [exact HL|exact Hmin|rewrite <- Hlf; lia]).
      assert (HO : forest_inv L M (S d) (odd_p prm) (even_p prm) odd (map inr set)) by (rewrite <- swap_inl; eapply combine_forest_inv; [exact HL| |exact HF|exact EO]; destruct set; [congruence|discriminate]).
      assert (Hlo : length odd = next_length L (length forest)) by (unfold combine_forest in EO; apply all_some_nth in EO as [EO _]; rewrite seq_length in EO; exact EO).
      rewrite <- Hlo in H. destruct (Nat.eqb_spec (length odd) 1) as [H2|H2].
      + destruct (nth_error odd 0) as [n|] eqn:En; [|discriminate]. injection H as <-. destruct (forest_one _ _ _ _ _ _ _ _ HL HO H2 En) as (I1 & I2 & I3). rewrite map_length in I3.
        exists (S d). split; [cbn [tree_ok]; rewrite Nat.even_succ, <- Nat.negb_even, Hd; auto|split; assumption].
      + destruct (combine_forest L M (length odd) (next_length L (length odd)) odd (even_p prm) (sl_delta (odd_p prm))) as [even|] eqn:EE; [|discriminate].
        pose proof (proj1 HO) as Hlo'. rewrite map_length in Hlo'.
        assert (Hle : length even = next_length L (length odd)) by (unfold combine_forest in EE; apply all_some_nth in EE as [EE _]; rewrite seq_length in EE; exact EE).
        rewrite <- Hle in H. eapply (IH (S (S d)) even); [cbn [Nat.even]; exact Hd| | |exact H].
        * rewrite <- swap_inr. eapply combine_forest_inv; [exact HL| |exact HO|exact EE]. destruct set; [congruence|discriminate].
        * apply minimal_step; [exact HL|exact Hmin'|]. rewrite <- Hlo'. assert (length odd <> 0%nat); [|lia]. rewrite Hlo. pose proof (next_length_0 L (length forest) HL). lia.
  Qed.
  Lemma leaves_inv L M prm (set : list P0) : forest_inv L M 0 (even_p prm) (odd_p prm) (map Leaf set) (map inl set).
  Proof.
    split.
    - rewrite !map_length. cbn [Nat.pow]. symmetry. apply next_length_unique; [lia|]. intros x. lia.
    - intros i n Hn. cbn [Nat.pow]. rewrite nth_error_map in Hn. destruct (nth_error set i) as [c|] eqn:Ec; [|discriminate]. apply Some_inj in Hn. subst n. cbn [holds well_committed]. split; [|exact I].
      unfold slice. rewrite Nat.mul_1_r, skipn_map. destruct (skipn i set) as [|x r] eqn:Es.
      + exfalso. pose proof (nth_error_skipn set i 0) as E. rewrite Es, Nat.add_0_r, Ec in E. discriminate.
      + pose proof (nth_error_skipn set i 0) as E. rewrite Es, Nat.add_0_r, Ec in E. cbn in E. apply Some_inj in E. subst x. reflexivity.
  Qed.
  (** ** Termination *)
  Lemma next_length_lt L n : (2 <= L)%nat -> (1 < n)%nat -> (next_length L n < n)%nat.
  Proof. intros HL Hn. pose proof (next_length_le L n (n - 1) ltac:(lia)). nia. Qed.
  Lemma next_length_le_self L n : (1 <= L)%nat -> (next_length L n <= n)%nat.
  Proof. intros HL. apply next_length_le; nia. Qed.
  Lemma from_loop_fuel L M prm : (2 <= L)%nat -> forall fuel forest fl, (fl < fuel)%nat -> from_loop fuel L M prm forest fl (next_length L fl) <> TFuel.
  Proof.
    intros HL. induction fuel as [|fuel IH]; intros forest fl Hf; cbn [from_loop]; [lia|]. destruct (Nat.leb_spec fl 1); [destruct (nth_error forest 0); discriminate|].
    destruct (combine_forest _ _ _ _ _ _ _) as [odd|]; [|discriminate]. cbv zeta. destruct (Nat.eqb_spec (next_length L fl) 1); [destruct (nth_error odd 0); discriminate|].
    destruct (combine_forest _ _ _ _ _ _ _) as [even|]; [|discriminate]. apply IH. pose proof (next_length_lt L fl HL ltac:(lia)). pose proof (next_length_le_self L (next_length L fl) ltac:(lia)). lia.
  Qed.
  Lemma from_loop_total L M prm set : (0 < L)%nat -> set <> [] -> enough_gens L M (even_p prm) -> enough_gens L M (odd_p prm) -> forall fuel d forest, forest_inv L M d (even_p prm) (odd_p prm) forest (map inl set) ->
    from_loop fuel L M prm forest (length forest) (next_length L (length forest)) <> TPanic.
  Proof.
    intros HL Hne He Ho. induction fuel as [|fuel IH]; intros d forest HF; cbn [from_loop]; [discriminate|].
    assert (Hf0 : length forest <> 0%nat). { rewrite (proj1 HF), map_length. pose proof (next_length_0 (L ^ d) (length set) (pow_pos L d HL)). destruct set; [congruence|cbn [length] in *; lia]. }
    destruct (Nat.leb_spec (length forest) 1) as [H1|H1]; [destruct (nth_error forest 0) eqn:E; [discriminate|]; apply nth_error_None in E; lia|].
    destruct (combine_forest_total L M d forest (odd_p prm) (even_p prm) (map inl set) (next_length L (length forest)) HL Ho HF) as (odd & EO). rewrite EO. cbv zeta.
    assert (HO : forest_inv L M (S d) (odd_p prm) (even_p prm) odd (map inr set)) by (rewrite <- swap_inl; eapply combine_forest_inv; [exact HL| |exact HF|exact EO]; destruct set; [congruence|discriminate]).
    assert (Hlo : length odd = next_length L (length forest)) by (unfold combine_forest in EO; apply all_some_nth in EO as [EO _]; rewrite seq_length in EO; exact EO).
    rewrite <- Hlo. destruct (Nat.eqb_spec (length odd) 1) as [H2|H2]; [destruct (nth_error odd 0) eqn:E; [discriminate|]; apply nth_error_None in E; lia|].
    destruct (combine_forest_total L M (S d) odd (even_p prm) (odd_p prm) (map inr set) (next_length L (length odd)) HL He HO) as (even & EE). rewrite EE.
    assert (Hle : length even = next_length L (length odd)) by (unfold combine_forest in EE; apply all_some_nth in EE as [EE _]; rewrite seq_length in EE; exact EE).
    rewrite <- Hle. apply (IH (S (S d))). rewrite <- swap_inr. eapply combine_forest_inv; [exact HL| |exact HO|exact EE]. destruct set; [congruence|discriminate].
  Qed.

  (** ** increase_height *)
  Lemma tree_ok_height L M prm d set t : tree_ok L M prm d set t -> t_height t = d.
  Proof. destruct t as [n|n]; intros (_ & H & _); exact (holds_height _ _ _ _ H). Qed.
  Lemma one_child (L d n : nat) : (0 < L)%nat -> (0 < n <= L ^ d)%nat -> 1%nat = next_length (L ^ d) n.
  Proof. intros HL Hn. symmetry. apply next_length_unique; [apply pow_pos, HL|]. intros x. nia. Qed.
  Lemma tree_ok_le L M prm d set t : (0 < L)%nat -> tree_ok L M prm d set t -> (0 < length set <= L ^ d)%nat.
  Proof.
    intros HL. destruct t as [n|n]; intros (_ & H & _); destruct d, n as [comms cs h e|c]; cbn [holds] in H; try contradiction.
    - apply (f_equal (@length _)) in H. rewrite map_length in H. cbn in *. lia.
    - destruct H as (_ & _ & H & _). rewrite map_length in H. exact H.
    - apply (f_equal (@length _)) in H. rewrite map_length in H. cbn in *. lia.
    - destruct H as (_ & _ & H & _). rewrite map_length in H. exact H.
  Qed.
  Lemma increase_step_ok L M prm d set t t' : (0 < L)%nat -> tree_ok L M prm d set t ->
    match t with TEven ct => option_map TOdd (node_combine L M [ct] (odd_p prm) (sl_delta (even_p prm))) | TOdd ct => option_map TEven (node_combine L M [ct] (even_p prm) (sl_delta (odd_p prm))) end = Some t' ->
    tree_ok L M prm (S d) set t'.
  Proof.
    intros HL Ht H. pose proof (tree_ok_le _ _ _ _ _ _ HL Ht) as Hl. pose proof (pow_pos L d HL) as Hk. destruct t as [ct|ct]; destruct Ht as (H1 & H2 & H3);
      (destruct (node_combine L M [ct] _ _) as [n|] eqn:E; [|discriminate]; cbn [option_map] in H; apply Some_inj in H; subst t'; cbn [tree_ok]).
    - split; [rewrite Nat.even_succ, <- Nat.negb_even, H1; reflexivity|]. split.
      + eapply combine_holds; [exact HL|exact E|rewrite map_length; apply one_child; assumption|rewrite map_length; cbn [Nat.pow]; nia|].
        intros [|i] c Hc; [|destruct i; discriminate]. apply Some_inj in Hc. subst c. rewrite slice_all by (rewrite map_length; lia). rewrite swap_inr. exact H2.
      + eapply combine_wc; [exact HL|exact E|discriminate| |]; intros c [<-|[]]; [exact H3|exact (holds_height _ _ _ _ H2)].
    - split; [rewrite Nat.even_succ, <- Nat.negb_even, H1; reflexivity|]. split.
      + eapply combine_holds; [exact HL|exact E|rewrite map_length; apply one_child; assumption|rewrite map_length; cbn [Nat.pow]; nia|].
        intros [|i] c Hc; [|destruct i; discriminate]. apply Some_inj in Hc. subst c. rewrite slice_all by (rewrite map_length; lia). rewrite swap_inl. exact H2.
      + eapply combine_wc; [exact HL|exact E|discriminate| |]; intros c [<-|[]]; [exact H3|exact (holds_height _ _ _ _ H2)].
  Qed.
  Lemma increase_loop_ok L M prm set h : (0 < L)%nat -> forall fuel d t t', tree_ok L M prm d set t -> increase_loop fuel L M prm h t = TOk t' -> tree_ok L M prm (Nat.max d h) set t'.
  Proof.
    intros HL. induction fuel as [|fuel IH]; intros d t t' Ht H; cbn [increase_loop] in H; [discriminate|]. rewrite (tree_ok_height _ _ _ _ _ _ Ht) in H.
    destruct (Nat.ltb_spec d h) as [Hlt|Hge].
    - match type of H with match ?x with _ => _ end = _ => destruct x as [t1|] eqn:E; [|discriminate] end. apply (increase_step_ok _ _ _ _ _ _ _ HL Ht) in E.
      replace (Nat.max d h) with (Nat.max (S d) h) by lia. eapply IH; eassumption.
    - injection H as <-. rewrite Nat.max_l by lia. exact Ht.
  Qed.
  Lemma increase_loop_fuel L M prm h : forall fuel t, (h - t_height t < fuel)%nat -> increase_loop fuel L M prm h t <> TFuel.
  Proof.
    induction fuel as [|fuel IH]; intros t Hf; [lia|]. cbn [increase_loop]. destruct (Nat.ltb_spec (t_height t) h) as [Hlt|]; [|discriminate].
    match goal with |- match ?x with _ => _ end <> _ => destruct x as [t1|] eqn:E; [|discriminate] end. apply IH.
    assert (t_height t1 = S (t_height t)); [|lia]. clear - E.
    assert (G : forall (G0 G1 : PField) (Q0 : SWCurve G1 G0) (Q1 : SWCurve G0 G1) (ct : Node Q1 Q0) (slp : SLParams Q0) delta n, node_combine L M [ct] slp delta = Some n -> n_height n = S (n_height ct)).
    { clear. intros G0 G1 Q0 Q1 ct slp delta n. unfold node_combine. destruct (L <? length [ct])%nat; [discriminate|]. cbv zeta. cbn [map app nth_error opt_bind]. destruct (all_some _); [|discriminate].
      cbn [opt_bind]. intros H. apply Some_inj in H. subst n. cbn [n_height]. lia. }
    destruct t as [ct|ct]; cbn [t_height]; (destruct (node_combine L M [ct] _ _) as [n|] eqn:EC; [|discriminate]); cbn [option_map] in E; apply Some_inj in E; subst t1; cbn [t_height]; exact (G _ _ _ _ _ _ _ _ EC).
  Qed.
  Lemma increase_loop_total L M prm set h : (0 < L)%nat -> enough_gens L M (even_p prm) -> enough_gens L M (odd_p prm) -> forall fuel d t, tree_ok L M prm d set t -> increase_loop fuel L M prm h t <> TPanic.
  Proof.
    intros HL He Ho. induction fuel as [|fuel IH]; intros d t Ht; cbn [increase_loop]; [discriminate|]. destruct (t_height t <? h)%nat; [|discriminate].
    assert (G : exists t1, match t with TEven ct => option_map TOdd (node_combine L M [ct] (odd_p prm) (sl_delta (even_p prm))) | TOdd ct => option_map TEven (node_combine L M [ct] (even_p prm) (sl_delta (odd_p prm))) end = Some t1).
    { destruct t as [ct|ct]; destruct Ht as (_ & _ & H3).
      - destruct (combine_total L M d [ct] (odd_p prm) (even_p prm) HL Ho) as (n & ->); [cbn; lia|intros c [<-|[]]; exact H3|cbn; eauto].
      - destruct (combine_total L M d [ct] (even_p prm) (odd_p prm) HL He) as (n & ->); [cbn; lia|intros c [<-|[]]; exact H3|cbn; eauto]. }
    destruct G as (t1 & G). rewrite G. apply (IH (S d)). eapply increase_step_ok; eassumption.
  Qed.
End TP3.

(** ** Walking and witnesses *)
Lemma usize_pow_small oc L h : (N.of_nat (L ^ h) < 2 ^ 64)%N -> usize_pow oc L h = Some (N.of_nat (L ^ h)).
Proof.
  intros H. unfold usize_pow. assert (E : (N.of_nat L ^ N.of_nat h)%N = N.of_nat (L ^ h)).
  { clear H. induction h as [|h IH]; [reflexivity|]. rewrite Nat2N.inj_succ, N.pow_succ_r', IH. cbn [Nat.pow]. rewrite Nat2N.inj_mul. reflexivity. }
  rewrite E. apply N.ltb_lt in H. rewrite H. reflexivity.
Qed.
Lemma small_pred L d : (0 < L)%nat -> (N.of_nat (L ^ S d) < 2 ^ 64)%N -> (N.of_nat (L ^ d) < 2 ^ 64)%N.
Proof. intros HL H. eapply N.le_lt_trans; [|exact H]. cbn [Nat.pow]. rewrite Nat2N.inj_mul. set (k := N.of_nat (L ^ d)). assert (1 <= N.of_nat L)%N by lia. nia. Qed.
Lemma child_index_eq oc L d index : (0 < L)%nat -> (N.of_nat (L ^ S d) < 2 ^ 64)%N ->
  child_index oc L (S d) index = Some (N.to_nat (index mod N.of_nat (L ^ S d)) / L ^ d)%nat.
Proof.
  intros HL H. pose proof (pow_pos L d HL) as Hk. unfold child_index. rewrite !usize_pow_small; [|apply (small_pred L d HL H)|exact H]. cbn [opt_bind].
  destruct (N.eqb_spec (N.of_nat (L ^ S d)) 0) as [E|_]; [pose proof (pow_pos L (S d) HL) as Hp; apply (f_equal N.to_nat) in E; rewrite Nat2N.id in E; change (N.to_nat 0) with 0%nat in E; rewrite E in Hp; inversion Hp|]. destruct (N.eqb_spec (N.of_nat (L ^ d)) 0) as [E|_]; [apply (f_equal N.to_nat) in E; rewrite Nat2N.id in E; change (N.to_nat 0) with 0%nat in E; rewrite E in Hk; inversion Hk|]. cbn [orb].
  rewrite N2Nat.inj_div, Nat2N.id. reflexivity.
Qed.
Lemma index_split L d index : (0 < L)%nat ->
  N.to_nat (index mod N.of_nat (L ^ S d)) = ((N.to_nat (index mod N.of_nat (L ^ S d)) / L ^ d) * L ^ d + N.to_nat (index mod N.of_nat (L ^ d)))%nat.
Proof.
  intros HL. pose proof (pow_pos L d HL) as Hk. rewrite !N2Nat.inj_mod, !Nat2N.id. set (i := N.to_nat index). set (k := (L ^ d)%nat) in *. cbn [Nat.pow]. fold k.
  rewrite (Nat.mul_comm L k). rewrite Nat.mod_mul_r by lia. rewrite (Nat.mul_comm k (i / k mod L)%nat), Nat.div_add by lia. rewrite (Nat.div_small (i mod k) k) by (apply Nat.mod_upper_bound; lia). lia.
Qed.
Lemma nth_children {A} (children : list A) n k : nth_error (map Some children ++ repeat None n) k = match nth_error children k with Some c => Some (Some c) | None => if (k <? length children + n)%nat then Some None else None end.
Proof.
  destruct (nth_error children k) as [c|] eqn:E.
  - rewrite nth_error_app1 by (rewrite map_length; apply nth_error_Some; rewrite E; discriminate). rewrite nth_error_map, E. reflexivity.
  - apply nth_error_None in E. rewrite nth_error_app2 by (rewrite map_length; exact E). rewrite map_length. destruct (Nat.ltb_spec k (length children + n)) as [H|H].
    + apply nth_error_repeat. lia.
    + apply nth_error_None. rewrite repeat_length. lia.
Qed.
Lemma swap_invol {A B} (o : option (A + B)) : option_map swap_sum (option_map (swap_sum (A := B) (B := A)) o) = o.
Proof. destruct o as [[?|?]|]; reflexivity. Qed.
Lemma walk_nth oc L : (0 < L)%nat -> forall d A B (n : Node A B) l index, (N.of_nat (L ^ d) < 2 ^ 64)%N -> holds L d n l ->
  walk oc L n index = nth_error l (N.to_nat (index mod N.of_nat (L ^ d))).
Proof.
  intros HL. induction d as [|d IH]; intros A B n l index Hc Hn; destruct n as [comms cs h e|c]; cbn [holds] in Hn; try contradiction.
  - subst l. cbn [walk Nat.pow]. change (N.of_nat 1) with 1%N. rewrite N.mod_1_r. reflexivity.
  - destruct Hn as (-> & -> & Hl & children & -> & Hle & Hlen & Hch). pose proof (pow_pos L d HL) as Hk. cbn [walk]. rewrite child_index_eq by assumption. cbn [opt_bind]. rewrite at_child_spec, nth_children.
    pose proof (index_split L d index HL) as Es. set (i := N.to_nat (index mod N.of_nat (L ^ S d))) in *. set (k := (i / L ^ d)%nat) in *.
    assert (Hr : (N.to_nat (index mod N.of_nat (L ^ d)) < L ^ d)%nat) by (rewrite N2Nat.inj_mod, Nat2N.id; apply Nat.mod_upper_bound; lia).
    destruct (nth_error children k) as [c|] eqn:Ec.
    + rewrite (IH B A c _ index) by (first [exact (small_pred L d HL Hc)|apply Hch; exact Ec]). rewrite <- nth_error_map, swap_swap, nth_error_slice.
      destruct (Nat.ltb_spec (N.to_nat (index mod N.of_nat (L ^ d))) (L ^ d)) as [_|]; [|lia]. rewrite <- Es. reflexivity.
    + apply nth_error_None in Ec. rewrite Hlen in Ec. apply next_length_le in Ec; [|exact Hk]. assert (Hi : (length l <= i)%nat) by (eapply Nat.le_trans; [exact Ec|]; eapply Nat.le_trans; [apply Nat.le_add_r|]; apply Nat.eq_le_incl; symmetry; exact Es).
      apply nth_error_None in Hi. rewrite Hi. destruct (_ <? _)%nat; reflexivity.
Qed.

(** [evens] and [odds] are the nodes of a path of length [d] from [parent] to [leaf]: each
    node's siblings open the parent, and the child is one of the siblings. *)
Fixpoint opens (L ti d : nat) {F0 F1 : PField} {P0 : SWCurve F1 F0} {P1 : SWCurve F0 F1} (prm0 : SLParams P0) (prm1 : SLParams P1)
  (parent : P0) (evens : list (Wit F0 P1)) (odds : list (Wit F1 P0)) (leaf : P0 + P1) : Prop :=
  match d with
  | O => evens = [] /\ odds = [] /\ leaf = inl parent
  | S d' => exists w evens', evens = w :: evens' /\ length (w_siblings w) = L /\ plain_commitment prm0 ti (w_siblings w) parent /\ In (match coords (vadd (w_child w) (sl_delta prm1)) with Some xy => fst xy | None => 0 end) (w_siblings w) /\ opens L ti d' prm1 prm0 (w_child w) odds evens' (swap_sum leaf)
  end.
Lemma opens_lengths L ti : forall d (F0 F1 : PField) (P0 : SWCurve F1 F0) (P1 : SWCurve F0 F1) (prm0 : SLParams P0) (prm1 : SLParams P1) parent evens odds leaf,
  opens L ti d prm0 prm1 parent evens odds leaf -> length evens = next_length 2 d /\ length odds = (d / 2)%nat.
Proof.
  induction d as [|d IH]; intros F0 F1 P0 P1 prm0 prm1 parent evens odds leaf H; cbn [opens] in H.
  - destruct H as (-> & -> & _). split; reflexivity.
  - destruct H as (w & evens' & -> & _ & _ & _ & H). apply IH in H as [H1 H2]. cbn [length]. unfold next_length in *.
    replace (S d + 2 - 1)%nat with (d + 1 * 2)%nat by lia. rewrite Nat.div_add by lia. replace (d + 2 - 1)%nat with (S d) in H1 by lia. lia.
Qed.
Lemma Forall2_nth {A B} (R : A -> B -> Prop) l m i a : Forall2 R l m -> nth_error l i = Some a -> exists b, nth_error m i = Some b /\ R a b.
Proof. intros H. revert i. induction H; intros [|i] E; cbn [nth_error] in *; try discriminate; [apply Some_inj in E; subst; eauto|apply IHForall2; exact E]. Qed.

Lemma node_witness_spec oc L M ti : (0 < L)%nat -> (ti < M)%nat -> forall d (F0 F1 : PField) (P0 : SWCurve F1 F0) (P1 : SWCurve F0 F1) (prm0 : SLParams P0) (prm1 : SLParams P1) (n : Node P0 P1) index,
  well_committed L M d prm0 prm1 n ->
  match walk oc L n index with
  | None => node_witness oc L n index ti (sl_delta prm0) (sl_delta prm1) = None
  | Some leaf => exists evens odds parent, node_witness oc L n index ti (sl_delta prm0) (sl_delta prm1) = Some (evens, odds) /\ n_commitment n ti = Some parent /\ opens L ti d prm0 prm1 parent evens odds leaf
  end.
Proof.
  intros HL Hti. induction d as [|d IH]; intros F0 F1 P0 P1 prm0 prm1 n index H; destruct n as [comms cs h e|c]; cbn [well_committed] in H; try contradiction.
  - cbn [walk node_witness n_commitment]. exists [], [], c. cbn [opens]. auto.
  - destruct H as (-> & HM & HLc & Hcom & Hch). cbn [walk node_witness]. destruct (child_index oc L (S d) index) as [k|]; [|reflexivity]. cbn [opt_bind]. rewrite !at_child_spec.
    destruct (nth_error cs k) as [[c|]|] eqn:Ek; [|reflexivity|reflexivity]. pose proof (nth_error_In _ _ Ek) as Hin. specialize (Hch c Hin).
    destruct (x_coordinates_total cs (sl_delta prm1) ti) as (xs & EX).
    { intros c' Hc'. clear - HM Hti Hc' Hch Ek IH Hcom HLc. destruct (nth_error comms ti) as [P|] eqn:E; [|apply nth_error_None in E; lia]. destruct (Hcom ti P E) as (xs & Hxs & _).
      apply In_nth_error in Hc' as (i & Hi). destruct (Forall2_nth _ _ _ _ _ Hxs Hi) as (x & _ & P' & HP' & _). eauto. }
    assert (HP : exists P, n_commitment c ti = Some P) by (eapply wc_commitment; eassumption). destruct HP as (P & HP).
    rewrite EX, HP. cbn [opt_bind]. specialize (IH _ _ _ _ prm1 prm0 c index). destruct (walk oc L c index) as [leaf|]; cbn [option_map].
    + destruct (IH Hch) as (odds & evens & P' & EW & HP' & Ho). rewrite EW. cbn [opt_bind]. rewrite HP in HP'. apply Some_inj in HP'. subst P'.
      destruct (nth_error comms ti) as [parent|] eqn:E; [|apply nth_error_None in E; lia]. exists (mkWit xs P :: evens), odds, parent. split; [reflexivity|]. split; [exact E|].
      destruct (Hcom ti parent E) as (ys & Hys & Hpc). pose proof (x_coordinates_spec _ _ _ _ EX) as Hxs. assert (Exy : xs = ys).
      { clear - Hxs Hys. revert ys Hys. induction Hxs as [|o x cs xs Ho Hxs IH]; intros ys Hys; inversion Hys as [|? y ? ys' Hy Hys']; subst; [reflexivity|]. rewrite (IH ys' Hys').
        destruct o as [c|]; cbn [slot_value] in Ho, Hy; [|congruence]. destruct Ho as (P & HP & ->), Hy as (P' & HP' & ->). rewrite HP in HP'. apply Some_inj in HP'. subst P'. reflexivity. }
      subst ys. cbn [opens]. exists (mkWit xs P), evens. split; [reflexivity|]. cbn [w_siblings w_child]. split; [rewrite <- HLc; symmetry; clear - Hxs; induction Hxs; cbn [length]; congruence|]. split; [exact Hpc|].
      split; [|destruct leaf; exact Ho]. destruct (Forall2_nth _ _ _ _ _ Hxs Ek) as (x & Hx & P' & HP' & Ex). rewrite HP in HP'. apply Some_inj in HP'. subst P'. rewrite <- Ex. exact (nth_error_In _ _ Hx).
    + rewrite (IH Hch). reflexivity.
Qed.
