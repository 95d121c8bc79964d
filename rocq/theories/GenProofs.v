(** * Lemmas about generators and rejection sampling *)
From Verif Require Import Generators UtilProofs.
Local Open Scope nat_scope.

Section GenProofs.
  Context {F : Field} {V : VSpace F}.
  Variable chain : bytes -> nat -> V.

  (** All generators of one letter for capacity [n] and [k] parties. *)
  Definition table (letter : N) (n k : nat) : list (list V) :=
    map (fun j => map (chain (gens_label letter j)) (seq 0 n)) (seq 0 k).

  Lemma combine_map_r {A B C} (f : B -> C) (l : list A) l' : combine l (map f l') = map (fun '(a, b) => (a, f b)) (combine l l').
  Proof. revert l'. induction l; intros [|b l']; cbn; f_equal; auto. Qed.
  Lemma combine_self {A} (l : list A) : combine l l = map (fun a => (a, a)) l.
  Proof. induction l; cbn; f_equal; auto. Qed.

  Lemma extend_table letter n m k : n <= m ->
    map (fun '(i, row) => row ++ chain_take_from chain (gens_label letter i) n (m - n))
        (combine (seq 0 k) (table letter n k)) = table letter m k.
  Proof.
    intros H. unfold table. rewrite combine_map_r, combine_self, !map_map. apply map_ext. intros j.
    unfold chain_take_from. rewrite <- map_app. f_equal. replace m with (n + (m - n)) at 2 by lia.
    rewrite seq_app. reflexivity.
  Qed.
  Lemma increase_table n m k : increase_capacity chain (mkBP n k (table 71 n k) (table 72 n k)) m
    = mkBP (Nat.max n m) k (table 71 (Nat.max n m) k) (table 72 (Nat.max n m) k).
  Proof.
    unfold increase_capacity. cbn [gens_capacity party_capacity G_vec H_vec].
    destruct (Nat.leb_spec m n).
    - rewrite Nat.max_l by assumption. reflexivity.
    - rewrite Nat.max_r by lia. rewrite !extend_table by lia. reflexivity.
  Qed.
  Lemma table0 letter k : table letter 0 k = repeat [] k.
  Proof. unfold table. cbn. generalize 0. induction k; intros; cbn; f_equal; auto. Qed.
  Lemma bp_new_table n k : bp_new chain n k = mkBP n k (table 71 n k) (table 72 n k).
  Proof. unfold bp_new. replace (mkBP 0 k (repeat [] k) (repeat [] k)) with (mkBP 0 k (table 71 0 k) (table 72 0 k)) by (rewrite !table0; reflexivity).
    rewrite increase_table. reflexivity. Qed.
  Lemma increase_new n m k : increase_capacity chain (bp_new chain n k) m = bp_new chain (Nat.max n m) k.
  Proof. rewrite !bp_new_table. apply increase_table. Qed.
  Lemma increase_many caps : forall n k,
    fold_left (increase_capacity chain) caps (bp_new chain n k) = bp_new chain (fold_left Nat.max caps n) k.
  Proof. induction caps as [|c caps IH]; intros n k; cbn; [reflexivity|]. rewrite increase_new. apply IH. Qed.

  Lemma firstn_map_seq {A} (f : nat -> A) n m : firstn m (map f (seq 0 n)) = map f (seq 0 (Nat.min m n)).
  Proof.
    rewrite firstn_map. f_equal. generalize 0. revert m. induction n as [|n IH]; intros [|m] a; cbn; try reflexivity.
    f_equal. apply IH.
  Qed.
  Lemma nth_table letter n k j : j < k -> nth_error (table letter n k) j = Some (map (chain (gens_label letter j)) (seq 0 n)).
  Proof.
    intros H. unfold table. rewrite nth_error_map. rewrite (nth_error_nth' _ 0) by (rewrite seq_length; exact H).
    rewrite seq_nth by assumption. reflexivity.
  Qed.
  Lemma share_G_new n k j m : j < k ->
    share_G (bp_new chain n k) j m = Some (map (chain (gens_label 71 j)) (seq 0 (Nat.min m n))).
  Proof. intros H. rewrite bp_new_table. unfold share_G. cbn [G_vec]. rewrite nth_table by assumption. cbn. rewrite firstn_map_seq. reflexivity. Qed.
  Lemma share_H_new n k j m : j < k ->
    share_H (bp_new chain n k) j m = Some (map (chain (gens_label 72 j)) (seq 0 (Nat.min m n))).
  Proof. intros H. rewrite bp_new_table. unfold share_H. cbn [H_vec]. rewrite nth_table by assumption. cbn. rewrite firstn_map_seq. reflexivity. Qed.

  (** ** The aggregated iterator *)
  (** Items still to come from a state (party p, index g). *)
  Definition agg_rest (arr : list (list V)) (n m p g : nat) : list V :=
    skipn g (firstn n (nth p arr [])) ++ concat (map (fun j => firstn n (nth j arr [])) (seq (S p) (m - S p))).

  Lemma agg_collect_rest arr n m : 0 < n -> m <= length arr -> (forall j, j < m -> n <= length (nth j arr [])) ->
    forall fuel p g, p < m -> g <= n -> (m - p) * n - g < fuel ->
    agg_collect fuel arr n m (p, g) = Some (agg_rest arr n m p g).
  Proof.
    intros Hn Hm Hrow. induction fuel as [|fuel IH]; intros p g Hp Hg Hf; [lia|].
    cbn [agg_collect]. unfold agg_next.
    assert (Hstep : forall p g, p < m -> g < n -> (m - p) * n - g <= fuel ->
      match nth_error arr p with
      | Some row => match nth_error row g with Some x => Some (Some x, (p, g + 1)) | None => None end
      | None => None end = Some (Some (nth g (nth p arr []) v0), (p, g + 1)) /\
      agg_collect fuel arr n m (p, g + 1) = Some (agg_rest arr n m p (g + 1))).
    { intros p' g' Hp' Hg' Hf'. rewrite (nth_error_nth' arr []) by lia.
      rewrite (nth_error_nth' _ v0) by (specialize (Hrow p' Hp'); lia). split; [reflexivity|].
      apply IH; [lia|lia|]. assert ((m - p') * n >= n) by (destruct (m - p') eqn:E; [lia|cbn; lia]). lia. }
    assert (Hcons : forall p g, p < m -> g < n -> agg_rest arr n m p g = nth g (nth p arr []) v0 :: agg_rest arr n m p (g + 1)).
    { intros p' g' Hp' Hg'. unfold agg_rest. rewrite app_comm_cons. f_equal.
      specialize (Hrow p' Hp'). rewrite Nat.add_1_r.
      assert (Hl : g' < length (firstn n (nth p' arr []))) by (rewrite firstn_length; lia).
      revert Hl. replace (nth g' (nth p' arr []) v0) with (nth g' (firstn n (nth p' arr [])) v0).
      - generalize (firstn n (nth p' arr [])). clear. induction g' as [|g IHg]; intros [|x l] H; cbn in *; try lia; [reflexivity|].
        apply IHg. lia.
      - rewrite nth_firstn. destruct (Nat.ltb_spec g' n); [reflexivity|lia]. }
    destruct (Nat.leb_spec n g) as [Hge|Hlt].
    - assert (g = n) by lia. subst g. rewrite Nat.add_1_r.
      assert (Hr : agg_rest arr n m p n = if m <=? S p then [] else agg_rest arr n m (S p) 0).
      { unfold agg_rest. rewrite skipn_all2 by (rewrite firstn_length; lia). cbn [app skipn].
        destruct (Nat.leb_spec m (S p)).
        - replace (m - S p) with 0 by lia. reflexivity.
        - replace (m - S p) with (S (m - S (S p))) by lia. cbn [seq map concat]. reflexivity. }
      rewrite Hr. destruct (Nat.leb_spec m (S p)); [reflexivity|].
      destruct (Hstep (S p) 0) as [-> ->]; [lia|lia| |].
      + replace (m - p) with (S (m - S p)) in Hf by lia. cbn [Nat.mul] in Hf. lia.
      + rewrite (Hcons (S p) 0) by lia. reflexivity.
    - destruct (Nat.leb_spec m p); [lia|].
      destruct (Hstep p g) as [-> ->]; [lia|lia|lia|]. rewrite (Hcons p g) by lia. reflexivity.
  Qed.

  Lemma agg_G_spec (gens : BPGens V) n m : 0 < n -> m <= length (G_vec gens) ->
    (forall j, j < m -> n <= length (nth j (G_vec gens) [])) ->
    agg_G gens n m = Some (concat (map (fun j => firstn n (nth j (G_vec gens) [])) (seq 0 m))).
  Proof.
    intros Hn Hm Hrow. unfold agg_G. destruct m as [|m].
    - rewrite Nat.mul_0_r. cbn. destruct n; [lia|]. reflexivity.
    - rewrite agg_collect_rest; [|assumption..| lia|lia|nia]. unfold agg_rest. cbn [skipn].
      cbn [seq map concat]. replace (S m - 1) with m by lia. reflexivity.
  Qed.

  Lemma agg_H_spec (gens : BPGens V) n m : 0 < n -> m <= length (H_vec gens) ->
    (forall j, j < m -> n <= length (nth j (H_vec gens) [])) ->
    agg_H gens n m = Some (concat (map (fun j => firstn n (nth j (H_vec gens) [])) (seq 0 m))).
  Proof. intros. apply (agg_G_spec (mkBP (gens_capacity gens) (party_capacity gens) (H_vec gens) (H_vec gens))); assumption. Qed.

  Lemma agg_new cap k n m : 0 < n <= cap -> m <= k ->
    agg_G (bp_new chain cap k) n m = Some (concat (map (fun j => map (chain (gens_label 71 j)) (seq 0 n)) (seq 0 m))) /\
    agg_H (bp_new chain cap k) n m = Some (concat (map (fun j => map (chain (gens_label 72 j)) (seq 0 n)) (seq 0 m))).
  Proof.
    intros Hn Hm.
    assert (Hrow : forall letter j, j < m -> nth j (table letter cap k) [] = map (chain (gens_label letter j)) (seq 0 cap))
      by (intros letter j Hj; apply nth_error_nth, nth_table; lia).
    rewrite bp_new_table. rewrite agg_G_spec, agg_H_spec; cbn [G_vec H_vec]; try lia;
      try (unfold table; rewrite map_length, seq_length; assumption);
      try (intros j Hj; rewrite Hrow, map_length, seq_length by assumption; lia).
    split; do 2 f_equal; apply map_ext_in; intros j Hj; apply in_seq in Hj; rewrite Hrow by lia;
      rewrite firstn_map_seq; do 2 f_equal; lia.
  Qed.
  Lemma agg_collect_0 (arr : list (list V)) m : m <= length arr -> (forall j, 0 < j < m -> 1 <= length (nth j arr [])) ->
    forall fuel p g, p < m -> m - p <= fuel ->
    agg_collect fuel arr 0 m (p, g) = Some (map (fun j => nth 0 (nth j arr []) v0) (seq (S p) (m - S p))).
  Proof.
    intros Hm Hrow. induction fuel as [|fuel IH]; intros p g Hp Hf; [lia|].
    cbn [agg_collect]. unfold agg_next. cbn [Nat.leb]. rewrite Nat.add_1_r.
    destruct (Nat.leb_spec m (S p)).
    - replace (m - S p) with 0 by lia. reflexivity.
    - rewrite (nth_error_nth' arr []) by lia. rewrite (nth_error_nth' _ v0) by (specialize (Hrow (S p) ltac:(lia)); lia).
      rewrite IH by lia. replace (m - S p) with (S (m - S (S p))) by lia. reflexivity.
  Qed.

  (** ** Rejection sampling *)
  Lemma first_scalar_spec (E : TrEnv V) seed tries : forall i x,
    first_scalar E seed i tries = Some x <->
    exists k, (k < tries)%nat /\ from_random_bytes E (sha3_256 E (seed ++ [(i + N.of_nat k)%N])) = Some x /\
      forall k', (k' < k)%nat -> from_random_bytes E (sha3_256 E (seed ++ [(i + N.of_nat k')%N])) = None.
  Proof.
    induction tries as [|tr IH]; intros i x; cbn [first_scalar].
    - split; [discriminate|]. intros (k & Hk & _). lia.
    - destruct (from_random_bytes E (sha3_256 E (seed ++ [i]))) as [y|] eqn:E0.
      + split.
        * intros H. injection H as ->. exists 0. rewrite N.add_0_r. split; [lia|]. split; [assumption|]. intros; lia.
        * intros (k & Hk & Hx & Hp). destruct k as [|k].
          -- rewrite N.add_0_r in Hx. congruence.
          -- specialize (Hp 0 ltac:(lia)). rewrite N.add_0_r in Hp. congruence.
      + rewrite IH. split.
        * intros (k & Hk & Hx & Hp). exists (S k). replace (i + N.of_nat (S k))%N with (i + 1 + N.of_nat k)%N by lia.
          split; [lia|]. split; [assumption|]. intros [|k'] Hk'; [rewrite N.add_0_r; assumption|].
          replace (i + N.of_nat (S k'))%N with (i + 1 + N.of_nat k')%N by lia. apply Hp. lia.
        * intros (k & Hk & Hx & Hp). destruct k as [|k]; [rewrite N.add_0_r in Hx; congruence|].
          exists k. replace (i + N.of_nat (S k))%N with (i + 1 + N.of_nat k)%N in Hx by lia.
          split; [lia|]. split; [assumption|]. intros k' Hk'. specialize (Hp (S k') ltac:(lia)).
          replace (i + N.of_nat (S k'))%N with (i + 1 + N.of_nat k')%N in Hp by lia. assumption.
  Qed.
  Lemma first_scalar_none (E : TrEnv V) seed tries : forall i,
    first_scalar E seed i tries = None <->
    forall k, (k < tries)%nat -> from_random_bytes E (sha3_256 E (seed ++ [(i + N.of_nat k)%N])) = None.
  Proof.
    induction tries as [|tr IH]; intros i; cbn [first_scalar].
    - split; [intros; lia|reflexivity].
    - destruct (from_random_bytes E (sha3_256 E (seed ++ [i]))) as [y|] eqn:E0.
      + split; [discriminate|]. intros H. specialize (H 0 ltac:(lia)). rewrite N.add_0_r in H. congruence.
      + rewrite IH. split.
        * intros H [|k] Hk; [rewrite N.add_0_r; assumption|].
          replace (i + N.of_nat (S k))%N with (i + 1 + N.of_nat k)%N by lia. apply H. lia.
        * intros H k Hk. replace (i + 1 + N.of_nat k)%N with (i + N.of_nat (S k))%N by lia. apply H. lia.
  Qed.
  Lemma first_point_spec sha (fb : bytes -> option V) data tries : forall i x,
    first_point sha fb data i tries = Some x <->
    exists k, (k < tries)%nat /\ fb (sha (data ++ [(i + N.of_nat k)%N])) = Some x /\
      forall k', (k' < k)%nat -> fb (sha (data ++ [(i + N.of_nat k')%N])) = None.
  Proof.
    induction tries as [|tr IH]; intros i x; cbn [first_point].
    - split; [discriminate|]. intros (k & Hk & _). lia.
    - destruct (fb (sha (data ++ [i]))) as [y|] eqn:E0.
      + split.
        * intros H. injection H as ->. exists 0. rewrite N.add_0_r. split; [lia|]. split; [assumption|]. intros; lia.
        * intros (k & Hk & Hx & Hp). destruct k as [|k].
          -- rewrite N.add_0_r in Hx. congruence.
          -- specialize (Hp 0 ltac:(lia)). rewrite N.add_0_r in Hp. congruence.
      + rewrite IH. split.
        * intros (k & Hk & Hx & Hp). exists (S k). replace (i + N.of_nat (S k))%N with (i + 1 + N.of_nat k)%N by lia.
          split; [lia|]. split; [assumption|]. intros [|k'] Hk'; [rewrite N.add_0_r; assumption|].
          replace (i + N.of_nat (S k'))%N with (i + 1 + N.of_nat k')%N by lia. apply Hp. lia.
        * intros (k & Hk & Hx & Hp). destruct k as [|k]; [rewrite N.add_0_r in Hx; congruence|].
          exists k. replace (i + N.of_nat (S k))%N with (i + 1 + N.of_nat k)%N in Hx by lia.
          split; [lia|]. split; [assumption|]. intros k' Hk'. specialize (Hp (S k') ltac:(lia)).
          replace (i + N.of_nat (S k'))%N with (i + 1 + N.of_nat k')%N in Hp by lia. assumption.
  Qed.
  Lemma first_point_none sha (fb : bytes -> option V) data tries : forall i,
    first_point sha fb data i tries = None <->
    forall k, (k < tries)%nat -> fb (sha (data ++ [(i + N.of_nat k)%N])) = None.
  Proof.
    induction tries as [|tr IH]; intros i; cbn [first_point].
    - split; [intros; lia|reflexivity].
    - destruct (fb (sha (data ++ [i]))) as [y|] eqn:E0.
      + split; [discriminate|]. intros H. specialize (H 0 ltac:(lia)). rewrite N.add_0_r in H. congruence.
      + rewrite IH. split.
        * intros H [|k] Hk; [rewrite N.add_0_r; assumption|].
          replace (i + N.of_nat (S k))%N with (i + 1 + N.of_nat k)%N by lia. apply H. lia.
        * intros H k Hk. replace (i + 1 + N.of_nat k)%N with (i + N.of_nat (S k))%N by lia. apply H. lia.
  Qed.
End GenProofs.
