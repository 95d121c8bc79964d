(** * The window tables of rerandomize.rs *)
From Verif Require Export RerandArith.
From Verif Require Import UtilProofs.
From Coq Require Import Lia.
Local Open Scope F_scope.

Section Tables.
  Context {F : Field} {S : PField} {C : SWCurve F S}.
  Add Field FFt : (f_th F).
  Add Field FSt : (f_th S).
  Implicit Types (h : C) (table : list (list F)).

  Lemma all_some_spec {A} (l : list (option A)) r : all_some l = Some r <-> l = map Some r.
  Proof.
    revert r. induction l as [|o l IH]; intros r; cbn [all_some].
    - split; [intros H; apply Some_inj in H; rewrite <- H; reflexivity|]. destruct r; [reflexivity|discriminate].
    - destruct o as [a|]; cbn [opt_bind].
      + destruct (all_some l) as [r'|]; cbn [opt_bind].
        * split; [intros H; apply Some_inj in H; rewrite <- H; cbn [map]; f_equal; apply IH; reflexivity|].
          destruct r as [|b r]; [discriminate|]. cbn [map]. intros H. injection H as -> H. apply IH in H. congruence.
        * split; [discriminate|]. destruct r as [|b r]; [discriminate|]. cbn [map]. intros H. injection H as -> H. apply IH in H. discriminate.
      + split; [discriminate|]. destruct r; discriminate.
  Qed.

  (** Table [i] of [m] holds the coordinates of the eight multiples of [h]. *)
  Definition good_table h (m i : nat) table : Prop :=
    exists r0 r1, table = [r0; r1] /\ forall j, (j < 8)%nat -> coords (vsmul (fZ (win_int m i j)) h) = Some (row_at r0 j, row_at r1 j).

  Lemma entry_scalar (m i j : nat) : (fN (N.of_nat j) * two_pow (3 * (i - 1)) + fZ (right_int m i) : S) = fZ (win_int m i j).
  Proof. unfold win_int. rewrite fZ_add, fZ_mul, two_pow_3, <- (nat_N_Z j), fZ_of_N. reflexivity. Qed.
  Lemma one_table_spec h m i t : one_table h (two_pow (3 * (i - 1))) (fZ (right_int m i)) = Some t -> good_table h m i t.
  Proof.
    unfold one_table. destruct (all_some _) as [es|] eqn:E; [|discriminate]. cbn [opt_bind]. intros H. apply Some_inj in H. subst t.
    exists (map fst es), (map snd es). split; [reflexivity|]. intros j Hj. apply all_some_spec in E.
    assert (Hl : length es = 8%nat) by (apply (f_equal (@length _)) in E; rewrite !map_length, seq_length in E; lia).
    apply (f_equal (fun l => nth_error l j)) in E. rewrite !nth_error_map in E. rewrite (nth_error_nth' (seq 0 8) 0%nat) in E by (rewrite seq_length; lia).
    rewrite seq_nth in E by lia. cbn [option_map Nat.add] in E. rewrite (nth_error_nth' es (0, 0)) in E by lia. cbn [option_map] in E. apply Some_inj in E.
    unfold table_entry in E. rewrite entry_scalar in E. rewrite E. unfold row_at.
    rewrite (nth_indep (map fst es) 0 (fst (0 : F, 0 : F))) by (rewrite map_length; lia). rewrite (nth_indep (map snd es) 0 (snd (0 : F, 0 : F))) by (rewrite map_length; lia).
    rewrite !map_nth. destruct (nth j es (0, 0)). reflexivity.
  Qed.
  Lemma one_table_some h m i : (forall j, (j < 8)%nat -> vsmul (fZ (win_int m i j)) h <> v0) -> one_table h (two_pow (3 * (i - 1))) (fZ (right_int m i)) <> None.
  Proof.
    intros H. unfold one_table. assert (He : exists es, all_some (map (table_entry h (two_pow (3 * (i - 1))) (fZ (right_int m i))) (seq 0 8)) = Some es).
    { assert (Hf : forall j, In j (seq 0 8) -> exists e, table_entry h (two_pow (3 * (i - 1))) (fZ (right_int m i)) j = Some e).
      { intros j Hj. apply in_seq in Hj. unfold table_entry. rewrite entry_scalar. destruct (coords_some _ (H j ltac:(lia))) as (x & y & Hxy). eauto. }
      revert Hf. generalize (seq 0 8). induction l as [|j l IH]; intros Hf; [exists []; reflexivity|]. destruct (Hf j (or_introl eq_refl)) as [e He].
      destruct IH as [es Hes]; [intros k Hk; apply Hf; right; exact Hk|]. exists (e :: es). cbn [map all_some]. rewrite He, Hes. reflexivity. }
    destruct He as [es ->]. discriminate.
  Qed.
  Lemma one_table_none h m i j : (j < 8)%nat -> vsmul (fZ (win_int m i j)) h = v0 -> one_table h (two_pow (3 * (i - 1))) (fZ (right_int m i)) = None.
  Proof.
    intros Hj H0. destruct (one_table _ _ _) as [t|] eqn:E; [|reflexivity]. apply one_table_spec in E. destruct E as (r0 & r1 & _ & Hg).
    specialize (Hg j Hj). rewrite H0, coords_v0 in Hg. discriminate.
  Qed.

  Lemma eights_pred i : (1 <= i)%nat -> eights i = (eights (i - 1) + 8 ^ Z.of_nat i)%Z.
  Proof. destruct i; [lia|]. intros _. cbn [eights]. rewrite Nat.sub_0_r || idtac. replace (Datatypes.S i - 1)%nat with i by lia. reflexivity. Qed.
  Lemma right_term_spec (m i : nat) (mth : S) : (1 <= i <= m)%nat -> mth = fZ (eights (i - 1)) ->
    (if (i <? m)%nat then (two_pow (3 * i), mth + two_pow (3 * i)) else (- mth, mth)) = (fZ (right_int m i), if (i <? m)%nat then fZ (eights i) else mth).
  Proof.
    intros Hi ->. unfold right_int. destruct (Nat.ltb_spec i m) as [Hlt|Hge].
    - rewrite two_pow_3, <- fZ_add. f_equal. f_equal. symmetry. apply eights_pred. lia.
    - replace i with m by lia. rewrite fZ_opp. reflexivity.
  Qed.
  Lemma tables_loop_good h m : forall k i mth ts, (1 <= i)%nat -> (i + k = Datatypes.S m)%nat -> mth = fZ (eights (i - 1)) ->
    tables_loop h m k i mth = Some ts -> length ts = k /\ forall n, (n < k)%nat -> good_table h m (i + n) (nth n ts []).
  Proof.
    induction k as [|k IH]; intros i mth ts Hi Hk Hm H; cbn [tables_loop] in H.
    - apply Some_inj in H. subst. split; [reflexivity|]. lia.
    - rewrite (right_term_spec m i mth) in H by (lia || exact Hm). destruct (one_table _ _ _) as [t|] eqn:Et; [|discriminate]. cbn [opt_bind] in H.
      destruct (tables_loop _ _ _ _ _) as [ts'|] eqn:El; [|discriminate]. cbn [opt_bind] in H. apply Some_inj in H. subst ts.
      apply one_table_spec in Et.
      assert (Hrest : length ts' = k /\ forall n, (n < k)%nat -> good_table h m (i + 1 + n) (nth n ts' [])).
      { destruct (Nat.ltb_spec i m) as [Hlt|Hge].
        - eapply IH; [| | |exact El]; try lia. replace (i + 1 - 1)%nat with i by lia. reflexivity.
        - assert (k = 0)%nat by lia. subst k. cbn [tables_loop] in El. apply Some_inj in El. subst. split; [reflexivity|lia]. }
      destruct Hrest as [Hl Hn]. split; [cbn; lia|]. intros [|n] Hlt; [rewrite Nat.add_0_r; exact Et|]. cbn [nth]. replace (i + Datatypes.S n)%nat with (i + 1 + n)%nat by lia. apply Hn. lia.
  Qed.
  Lemma tables_loop_some h m : forall k i mth, (1 <= i)%nat -> (i + k = Datatypes.S m)%nat -> mth = fZ (eights (i - 1)) ->
    (forall n j, (i <= n <= m)%nat -> (j < 8)%nat -> vsmul (fZ (win_int m n j)) h <> v0) -> tables_loop h m k i mth <> None.
  Proof.
    induction k as [|k IH]; intros i mth Hi Hk Hm H; cbn [tables_loop]; [discriminate|].
    rewrite (right_term_spec m i mth) by (lia || exact Hm). destruct (one_table _ _ _) as [t|] eqn:Et.
    2:{ exfalso. revert Et. apply one_table_some. intros j Hj. apply H; lia. }
    cbn [opt_bind]. destruct (tables_loop _ _ _ _ _) as [ts'|] eqn:El; [discriminate|]. exfalso. revert El. destruct (Nat.ltb_spec i m) as [Hlt|Hge].
    - apply IH; try lia; [replace (i + 1 - 1)%nat with i by lia; reflexivity|]. intros n j Hn Hj. apply H; lia.
    - assert (k = 0)%nat by lia. subst k. discriminate.
  Qed.
  Lemma tables_loop_none h m : forall k i mth n j, (1 <= i)%nat -> (i + k = Datatypes.S m)%nat -> mth = fZ (eights (i - 1)) ->
    (i <= n <= m)%nat -> (j < 8)%nat -> vsmul (fZ (win_int m n j)) h = v0 -> tables_loop h m k i mth = None.
  Proof.
    intros k i mth n j Hi Hk Hm Hn Hj H0. destruct (tables_loop h m k i mth) as [ts|] eqn:E; [|reflexivity]. exfalso.
    destruct (tables_loop_good h m k i mth ts Hi Hk Hm E) as [_ Hg]. destruct (Hg (n - i)%nat) as (r0 & r1 & _ & Hc); [lia|].
    replace (i + (n - i))%nat with n in Hc by lia. specialize (Hc j Hj). rewrite H0, coords_v0 in Hc. discriminate.
  Qed.

  Lemma windows_pos : (1 <= windows (S:=S))%nat. Proof. unfold windows. lia. Qed.
  (** tables that [build_tables] returns *)
  Definition good_tables h (tables : list (list (list F))) : Prop :=
    length tables = windows (S:=S) /\ forall i, (1 <= i <= windows (S:=S))%nat -> good_table h (windows (S:=S)) i (nth (i - 1) tables []).
  Lemma build_tables_good h ts : build_tables h = Some ts -> good_tables h ts.
  Proof.
    intros H. destruct (tables_loop_good h (windows (S:=S)) (windows (S:=S)) 1 0 ts) as [H1 H2]; auto; try lia. split; [exact H1|].
    intros i Hi. specialize (H2 (i - 1)%nat ltac:(lia)). replace (1 + (i - 1))%nat with i in H2 by lia. exact H2.
  Qed.
  (** [build_tables] panics exactly when some entry is the point at infinity. *)
  Lemma build_tables_iff h : build_tables h <> None <->
    (forall i j, (1 <= i <= windows (S:=S))%nat -> (j < 8)%nat -> vsmul (fZ (win_int (windows (S:=S)) i j)) h <> v0).
  Proof.
    split.
    - intros H i j Hi Hj H0. apply H. eapply (tables_loop_none h (windows (S:=S)) (windows (S:=S)) 1 0 i j); auto; lia.
    - intros H. apply tables_loop_some; auto; lia.
  Qed.
  Lemma fZ_smul_0 h z : h <> v0 -> (vsmul (fZ z) h = v0 <-> (z mod Z.of_N (pf_mod S) = 0)%Z).
  Proof.
    intros Hh. rewrite <- fZ_eq_0. split; [intros H; apply vsmul_eq_0 in H; tauto|]. intros ->. apply vsmul_0_l.
  Qed.
  Lemma good_entry h ts i j e : good_tables h ts -> (1 <= i <= windows (S:=S))%nat -> (j < 8)%nat ->
    coords e = Some (row_at (nth 0 (nth (i - 1) ts []) []) j, row_at (nth 1 (nth (i - 1) ts []) []) j) -> e = vsmul (fZ (win_int (windows (S:=S)) i j)) h.
  Proof.
    intros [_ Hg] Hi Hj He. destruct (Hg i Hi) as (r0 & r1 & Ht & Hc). rewrite Ht in He. cbn [nth] in He. eapply coords_inj; [exact He|apply Hc, Hj].
  Qed.
End Tables.
