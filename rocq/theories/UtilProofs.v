(** * Lemmas about the util.rs model *)
From Verif Require Import Util.
Local Open Scope F_scope.

Lemma Some_inj {A} (x y : A) : Some x = Some y -> x = y.
Proof. congruence. Qed.

Lemma opt_all_Some {A} (l : list (option A)) r :
  opt_all l = Some r <-> l = map Some r.
Proof.
  revert r; induction l as [|x l IH]; intros r; cbn.
  - split; intros H; [injection H as <-; reflexivity|]. destruct r; [reflexivity|discriminate].
  - destruct x as [a|].
    + destruct (opt_all l) as [b|] eqn:E.
      * split; intros H.
        -- injection H as <-. cbn. f_equal. apply IH. reflexivity.
        -- destruct r as [|a' r]; [discriminate|]. cbn in H. injection H as -> H.
           apply IH in H. congruence.
      * split; intros H; [discriminate|]. destruct r as [|a' r]; [discriminate|].
        cbn in H. injection H as -> H. apply IH in H. discriminate.
    + split; intros H; [discriminate|]. destruct r; discriminate.
Qed.

Lemma opt_all_map_seq {A} (f : nat -> option A) g n :
  (forall i, i < n -> f i = Some (g i)) -> opt_all (map f (seq 0 n)) = Some (map g (seq 0 n)).
Proof.
  intros H. apply opt_all_Some. rewrite map_map. apply map_ext_in.
  intros i Hi. apply in_seq in Hi. apply H. lia.
Qed.

Section UtilProofs.
  Context {F : Field}.
  Add Field FFu : (f_th F).
  Implicit Types (xs ys : list F) (x : F).

  Lemma horner_rev (p : list F) x acc :
    fold_left (fun out v => out * x + v) (rev p) acc = peval p x + fpow x (length p) * acc.
  Proof.
    revert acc; induction p as [|c p IH]; intros acc; cbn [rev length fpow peval].
    - cbn. ring.
    - rewrite fold_left_app, IH. cbn. ring.
  Qed.
  Lemma poly_eval_peval p x : poly_eval p x = peval p x.
  Proof. unfold poly_eval. rewrite horner_rev. ring. Qed.

  (** rows all of length [n] *)
  Definition rect (n : nat) (p : VecPoly F) : Prop := Forall (fun v => length v = n) p.

  Lemma rect_nth n p d : rect n p -> d < length p -> length (nth d p []) = n.
  Proof. intros H Hd. unfold rect in H. rewrite Forall_forall in H. apply H, nth_In, Hd. Qed.

  Lemma fold_left_map_f {A B C} (f : A -> B -> A) (g : C -> B) l a :
    fold_left f (map g l) a = fold_left (fun a c => f a (g c)) l a.
  Proof. revert a; induction l as [|c l IH]; intros a; cbn; auto. Qed.

  Lemma vp_eval_Some n p x : p <> [] -> rect n p ->
    vp_eval p x = Some (map (fun i => peval (map (fun v => nth i v 0) p) x) (seq 0 n)).
  Proof.
    intros Hne Hr. unfold vp_eval. destruct p as [|row0 p']; [congruence|].
    assert (Hl : length row0 = n) by (inversion Hr; assumption).
    replace (forallb _ _) with true.
    - f_equal. rewrite Hl. apply map_ext. intros i.
      rewrite <- (fold_left_map_f (fun out v => out * x + v) (fun v => nth i v 0)).
      rewrite map_rev, horner_rev. cbn [map]. ring.
    - symmetry. apply forallb_forall. intros v Hv. unfold rect in Hr. rewrite Forall_forall in Hr.
      rewrite (Hr v Hv), Hl. apply Nat.leb_refl.
  Qed.

  Lemma vp_eval_nth n p x v i : p <> [] -> rect n p -> vp_eval p x = Some v -> i < n ->
    nth i v 0 = fsum (length p) (fun d => nth i (nth d p []) 0 * fpow x d).
  Proof.
    intros Hne Hr Hv Hi. rewrite (vp_eval_Some n) in Hv by assumption. injection Hv as <-.
    rewrite nth_map_seq by assumption.
    rewrite (peval_fsum _ _ (length p)) by (rewrite map_length; lia).
    apply fsum_ext. intros d Hd. f_equal.
    rewrite nth_map_in with (da := []) by assumption. reflexivity.
  Qed.
  Lemma vp_eval_length n p x v : p <> [] -> rect n p -> vp_eval p x = Some v -> length v = n.
  Proof.
    intros Hne Hr Hv. rewrite (vp_eval_Some n) in Hv by assumption. injection Hv as <-.
    rewrite map_length, seq_length. reflexivity.
  Qed.

  Lemma vp_ip_coeff_Some n l r d : l <> [] -> r <> [] -> rect n l -> rect n r ->
    vp_ip_coeff l r d = Some (fsum (S d) (fun k => ip (nth k l []) (nth (d - k) r []))).
  Proof.
    intros Hl Hr Rl Rr. unfold vp_ip_coeff. rewrite Nat.add_1_r.
    generalize (S d) as m. induction m as [|m IH]; [reflexivity|].
    rewrite seq_S, fold_left_app, IH. cbn [fold_left fsum opt_bind plus].
    assert (Ll : length l <> 0%nat) by (destruct l; cbn; congruence).
    assert (Lr : length r <> 0%nat) by (destruct r; cbn; congruence).
    unfold vp_deg.
    destruct (Nat.leb_spec m (length l - 1)) as [H1|H1]; cbn [andb].
    - destruct (Nat.leb_spec (d - m) (length r - 1)) as [H2|H2]; cbn [andb].
      + unfold inner_product. rewrite !(rect_nth n), Nat.eqb_refl by (auto; lia). reflexivity.
      + rewrite (nth_overflow r) by lia. rewrite ip_nil_r. f_equal. ring.
    - rewrite (nth_overflow l) by lia. cbn [ip]. f_equal. ring.
  Qed.

  Lemma vp_inner_product_Some n l r : l <> [] -> r <> [] -> rect n l -> rect n r ->
    vp_inner_product l r =
    Some (map (fun d => fsum (S d) (fun k => ip (nth k l []) (nth (d - k) r [])))
              (seq 0 (vp_deg l + vp_deg r + 1))).
  Proof.
    intros. unfold vp_inner_product. apply opt_all_map_seq. intros. apply (vp_ip_coeff_Some n); assumption.
  Qed.

  Lemma triangle_sum N (f : nat -> nat -> F) :
    fsum N (fun d => fsum (S d) (fun l => f l (d - l)%nat)) =
    fsum N (fun l => fsum (N - l) (fun r => f l r)).
  Proof.
    induction N as [|N IH]; [reflexivity|].
    cbn [fsum] in *. rewrite IH.
    replace (S N - N)%nat with 1%nat by lia. rewrite Nat.sub_diag. cbn [fsum].
    rewrite (fsum_ext N (fun l => fsum (S N - l) (fun r => f l r))
                        (fun l => fsum (N - l) (fun r => f l r) + f l (N - l)%nat)).
    - rewrite fsum_add. ring.
    - intros l Hl. replace (S N - l)%nat with (S (N - l)) by lia. reflexivity.
  Qed.

  Lemma cauchy_sum D1 D2 (f : nat -> nat -> F) :
    (forall l r, D1 <= l \/ D2 <= r -> f l r = 0) ->
    fsum (D1 + D2) (fun d => fsum (S d) (fun l => f l (d - l)%nat)) =
    fsum D1 (fun l => fsum D2 (fun r => f l r)).
  Proof.
    intros H. rewrite triangle_sum.
    rewrite (fsum_extend D1 (D1 + D2)); [|lia|].
    - apply fsum_ext. intros l Hl. apply fsum_extend; [lia|]. intros r Hr. apply H. lia.
    - intros l Hl. apply fsum_zero. intros r Hr. apply H. lia.
  Qed.

  Lemma vp_inner_product_eval n l r x t lx rx :
    l <> [] -> r <> [] -> rect n l -> rect n r ->
    vp_inner_product l r = Some t -> vp_eval l x = Some lx -> vp_eval r x = Some rx ->
    poly_eval t x = ip lx rx.
  Proof.
    intros Hl Hr Rl Rr Ht Hlx Hrx.
    assert (Ll : length l <> 0%nat) by (destruct l; cbn; congruence).
    assert (Lr : length r <> 0%nat) by (destruct r; cbn; congruence).
    rewrite (vp_inner_product_Some n) in Ht by assumption. apply Some_inj in Ht; subst t.
    rewrite poly_eval_peval.
    rewrite (peval_fsum _ _ (length l + length r)) by (rewrite map_length, seq_length; unfold vp_deg; lia).
    rewrite (ip_fsum _ _ n) by (rewrite (vp_eval_length n l x lx) by assumption; lia).
    transitivity (fsum (length l + length r) (fun d => fsum (S d) (fun k =>
       fsum n (fun i => (nth i (nth k l []) 0 * nth i (nth (d - k) r []) 0) * (fpow x k * fpow x (d - k)))))).
    { apply fsum_ext. intros d Hd.
      destruct (Nat.lt_ge_cases d (vp_deg l + vp_deg r + 1)) as [Hd'|Hd'].
      - rewrite nth_map_seq by assumption. rewrite <- fsum_scale_r. apply fsum_ext. intros k Hk.
        replace (fpow x d) with (fpow x k * fpow x (d - k)) by (rewrite <- fpow_add; f_equal; lia).
        destruct (Nat.lt_ge_cases k (length l)).
        + rewrite (ip_fsum _ _ n) by (rewrite (rect_nth n l k) by assumption; lia).
          rewrite <- fsum_scale_r. apply fsum_ext. intros; ring.
        + rewrite (nth_overflow l) by assumption. cbn [ip]. rewrite fsum_zero; [ring|].
          intros [|i] _; cbn; ring.
      - rewrite nth_overflow by (rewrite map_length, seq_length; lia).
        rewrite fsum_zero; [ring|]. intros k Hk. apply fsum_zero. intros i Hi. unfold vp_deg in Hd'.
        destruct (Nat.lt_ge_cases k (length l)).
        + rewrite (nth_overflow r (n := (d - k)%nat)) by lia. destruct i; cbn; ring.
        + rewrite (nth_overflow l) by assumption. destruct i; cbn; ring. }
    rewrite (cauchy_sum (length l) (length r) (fun k j =>
       fsum n (fun i => (nth i (nth k l []) 0 * nth i (nth j r []) 0) * (fpow x k * fpow x j)))).
    2:{ intros k j Hkj. apply fsum_zero. intros i Hi.
        destruct Hkj; [rewrite (nth_overflow l) by lia|rewrite (nth_overflow r) by lia]; destruct i; cbn; ring. }
    rewrite (fsum_ext (length l) _ (fun k => fsum n (fun i => fsum (length r) (fun j =>
       (nth i (nth k l []) 0 * nth i (nth j r []) 0) * (fpow x k * fpow x j)))))
      by (intros; apply fsum_swap).
    rewrite fsum_swap. apply fsum_ext. intros i Hi.
    rewrite (vp_eval_nth n l x lx i), (vp_eval_nth n r x rx i) by assumption.
    rewrite <- fsum_scale_r. apply fsum_ext. intros k Hk.
    rewrite <- fsum_scale. apply fsum_ext. intros; ring.
  Qed.

  Lemma exp_iter_from_powers a x n : exp_iter_from a x n = powers_from a x n.
  Proof. revert a; induction n as [|n IH]; intros a; cbn; [reflexivity|]. rewrite IH. reflexivity. Qed.
  Lemma exp_iter_length x n : length (exp_iter x n) = n.
  Proof. unfold exp_iter. rewrite exp_iter_from_powers. apply powers_from_length. Qed.
  Lemma nth_exp_iter x n i : i < n -> nth i (exp_iter x n) 0 = fpow x i.
  Proof. intros. unfold exp_iter. rewrite exp_iter_from_powers, nth_powers_from by assumption. ring. Qed.
  Lemma exp_iter_map x n : exp_iter x n = map (fpow x) (seq 0 n).
  Proof.
    apply list_ext_nth with (d := 0); [rewrite exp_iter_length, map_length, seq_length; reflexivity|].
    intros i Hi. rewrite exp_iter_length in Hi. rewrite nth_exp_iter, nth_map_seq by assumption. reflexivity.
  Qed.

  Lemma fpow_sq x n : fpow (x * x) n = fpow x (2 * n).
  Proof. rewrite fpow_mul. cbn. rewrite fmul_1_r. reflexivity. Qed.

  Lemma scalar_exp_loop_spec fuel (res aux : F) n :
    (n < 2 ^ N.of_nat fuel)%N -> scalar_exp_loop fuel res aux n = Some (res * fpow aux (N.to_nat n)).
  Proof.
    revert res aux n; induction fuel as [|k IH]; intros res aux n Hn; cbn [scalar_exp_loop].
    - replace n with 0%N by (cbn in Hn; lia). cbn. f_equal. ring.
    - destruct (N.eqb_spec n 0) as [->|Hn0]; [cbn; f_equal; ring|].
      rewrite N.shiftr_div_pow2. change (2 ^ 1)%N with 2%N.
      assert (Hland : N.land n 1 = (n mod 2)%N) by exact (N.land_ones n 1).
      rewrite Hland. pose proof (N.div_mod' n 2) as Hdm. pose proof (N.mod_lt n 2) as Hml.
      rewrite Nat2N.inj_succ, N.pow_succ_r' in Hn.
      rewrite IH by (apply N.div_lt_upper_bound; lia).
      f_equal. rewrite fpow_sq.
      set (q := (n / 2)%N) in *. set (m := (n mod 2)%N) in *.
      assert (Hnat : N.to_nat n = (2 * N.to_nat q + N.to_nat m)%nat) by lia.
      rewrite Hnat, fpow_add. destruct (N.eqb_spec m 1) as [->|Hm].
      + change (N.to_nat 1) with 1%nat. cbn [fpow]. ring.
      + replace m with 0%N by lia. change (N.to_nat 0) with 0%nat. cbn [fpow]. ring.
  Qed.

  Lemma sum_of_powers_slow_spec x n : sum_of_powers_slow x n = fsum n (fpow x).
  Proof. unfold sum_of_powers_slow. rewrite exp_iter_map. apply vsum_map_seq. Qed.

  Lemma fsum_pow_double x n : fsum (2 * n) (fpow x) = fsum n (fpow x) + fpow x n * fsum n (fpow x).
  Proof.
    replace (2 * n)%nat with (n + n)%nat by lia. rewrite fsum_split.
    f_equal. rewrite <- fsum_scale. apply fsum_ext. intros. apply fpow_add.
  Qed.

  (** loop invariant: result = sum of the first [2^(j+1)] powers, factor = x^(2^j) *)
  Lemma sum_of_powers_loop_spec x k : forall j fuel, (k <= fuel)%nat ->
    sum_of_powers_loop fuel (2 ^ S k) (fsum (2 ^ S j) (fpow x)) (fpow x (2 ^ j))
    = Some (fsum (2 ^ S (j + k)) (fpow x)).
  Proof.
    induction k as [|k IH]; intros j fuel Hf.
    - destruct fuel; cbn [sum_of_powers_loop]; rewrite Nat.add_0_r;
        replace (2 <? 2 ^ 1)%nat with false by reflexivity; reflexivity.
    - destruct fuel as [|fuel]; [lia|]. cbn [sum_of_powers_loop].
      assert (Hpos : (2 ^ k <> 0)%nat) by (apply Nat.pow_nonzero; lia).
      replace (2 <? 2 ^ S (S k))%nat with true by (symmetry; apply Nat.ltb_lt; cbn; lia).
      replace (2 ^ S (S k) / 2)%nat with (2 ^ S k)%nat
        by (rewrite (Nat.pow_succ_r' 2 (S k)), Nat.mul_comm, Nat.div_mul; lia).
      replace (fpow x (2 ^ j) * fpow x (2 ^ j)) with (fpow x (2 ^ S j))
        by (rewrite <- fpow_add; f_equal; cbn; lia).
      rewrite <- fsum_pow_double. rewrite <- (Nat.pow_succ_r' 2 (S j)).
      rewrite IH by lia. do 3 f_equal. lia.
  Qed.

  Lemma sum_of_powers_spec x n : sum_of_powers x n = Some (fsum n (fpow x)).
  Proof.
    unfold sum_of_powers. destruct (is_power_of_two n) eqn:E; cbn [negb].
    2:{ rewrite sum_of_powers_slow_spec. reflexivity. }
    unfold is_power_of_two in E. apply andb_true_iff in E as [E0 E1].
    apply negb_true_iff, Nat.eqb_neq in E0. apply Nat.eqb_eq in E1.
    destruct (Nat.eqb_spec n 0) as [|_]; [lia|]. cbn [orb].
    destruct (Nat.eqb_spec n 1) as [->|H1]; [cbn [fnat fsum fpow]; f_equal; ring|].
    destruct (Nat.log2 n) as [|k] eqn:El; [cbn in E1; lia|].
    transitivity (sum_of_powers_loop n (2 ^ S k) (fsum (2 ^ 1) (fpow x)) (fpow x (2 ^ 0))).
    - rewrite <- E1. f_equal; cbn; ring.
    - rewrite sum_of_powers_loop_spec.
      + rewrite Nat.add_0_l, <- E1. reflexivity.
      + pose proof (Nat.log2_lt_lin n). lia.
  Qed.

  Lemma is_power_of_two_spec n : is_power_of_two n = true <-> exists k, n = (2 ^ k)%nat.
  Proof.
    unfold is_power_of_two. split.
    - intros H. apply andb_true_iff in H as [_ H]. apply Nat.eqb_eq in H. eauto.
    - intros [k ->]. rewrite Nat.log2_pow2 by lia. rewrite Nat.eqb_refl, andb_true_r.
      apply negb_true_iff, Nat.eqb_neq, Nat.pow_nonzero. lia.
  Qed.
  Lemma next_power_of_two_ge n : n <= next_power_of_two n.
  Proof.
    unfold next_power_of_two. destruct (Nat.le_gt_cases n 1) as [H|H].
    - rewrite Nat.log2_up_eqn0 by assumption. cbn. lia.
    - apply Nat.log2_up_spec. assumption.
  Qed.
  Lemma next_power_of_two_pos n : 0 < next_power_of_two n.
  Proof. unfold next_power_of_two. apply Nat.neq_0_lt_0, Nat.pow_nonzero. lia. Qed.
  (** least power of two that is at least [n] *)
  Lemma next_power_of_two_least n k : n <= 2 ^ k -> next_power_of_two n <= 2 ^ k.
  Proof.
    intros H. unfold next_power_of_two. apply Nat.pow_le_mono_r; [lia|].
    destruct (Nat.le_gt_cases n 1) as [H1|H1]; [rewrite Nat.log2_up_eqn0; lia|].
    apply Nat.log2_up_le_pow2; lia.
  Qed.

  Lemma vp1_spec (l r : VecPoly1 F) t x lx rx :
    length (vp1_0 l) = length (vp1_1 l) -> length (vp1_0 r) = length (vp1_1 r) ->
    vp1_inner_product l r = Some t -> vp1_eval l x = Some lx -> vp1_eval r x = Some rx ->
    p2_eval t x = ip lx rx.
  Proof.
    destruct l as [l0 l1], r as [r0 r1]. unfold vp1_inner_product, vp1_eval, inner_product, add_vec, guard.
    cbn [vp1_0 vp1_1]. intros Hl Hr.
    destruct (Nat.eqb_spec (length l0) (length r0)) as [H0|]; [|discriminate]. cbn [opt_bind].
    destruct (Nat.eqb_spec (length l1) (length r1)) as [H1|]; [|discriminate]. cbn [opt_bind].
    rewrite Hl, Hr, !Nat.leb_refl, !Nat.sub_diag. cbn [opt_bind repeat]. rewrite !app_nil_r.
    rewrite !zipw_length, Hl, Hr, H1, Nat.eqb_refl. cbn [opt_bind].
    intros Ht Hlx Hrx. injection Ht as <-. injection Hlx as <-. injection Hrx as <-.
    unfold p2_eval; cbn [p2_0 p2_1 p2_2].
    clear - Hl Hr H0 H1.
    revert l1 r0 r1 Hl Hr H0 H1; induction l0 as [|a l0 IH]; intros [|b l1] [|c r0] [|d r1];
      cbn; intros; try lia; try ring.
    injection Hl as Hl; injection Hr as Hr; injection H0 as H0; injection H1 as H1.
    rewrite <- (IH l1 r0 r1) by assumption. ring.
  Qed.

  Lemma vp3_spec (l r : VecPoly3 F) t x lx rx n :
    length (vp3_1 l) = n -> length (vp3_2 l) = n -> length (vp3_3 l) = n ->
    length (vp3_0 r) = n -> length (vp3_1 r) = n -> length (vp3_3 r) = n ->
    vp3_0 l = zeros n -> vp3_2 r = zeros n ->
    vp3_special_inner_product l r = Some t -> vp3_eval l x = Some lx -> vp3_eval r x = Some rx ->
    p6_eval t x = ip lx rx.
  Proof.
    destruct l as [l0 l1 l2 l3], r as [r0 r1 r2 r3].
    unfold vp3_special_inner_product, vp3_eval, inner_product, guard.
    cbn [vp3_0 vp3_1 vp3_2 vp3_3]. intros L1 L2 L3 R0 R1 R3 -> ->.
    rewrite L1, L2, L3, R0, R1, R3, !zeros_length, !Nat.eqb_refl, !Nat.leb_refl. cbn [opt_bind andb].
    intros Ht Hlx Hrx. injection Ht as <-. injection Hlx as <-. injection Hrx as <-.
    unfold p6_eval; cbn [p6_1 p6_2 p6_3 p6_4 p6_5 p6_6].
    rewrite !(ip_fsum _ _ n) by (rewrite ?map_length, ?seq_length; lia).
    rewrite <- ?fsum_add, <- ?fsum_scale.
    repeat (rewrite <- fsum_scale || rewrite <- fsum_add).
    apply fsum_ext. intros i Hi. rewrite !nth_map_seq by assumption. rewrite !nth_zeros. ring.
  Qed.
End UtilProofs.
