(** * Proofs behind PropsCS.v *)
From Verif Require Import CSSpec CSProofs Lockstep CSLogic FlatProofs UtilProofs.
Local Open Scope F_scope.

Section More.
  Context {F : Field} {V : VSpace F}.
  Add Field FFmore : (f_th F).

  Lemma session_agree (E : TrEnv V) pc g tr s t : session E pc g tr s t ->
    gates_inv s /\ agree pc g s t.
  Proof.
    induction 1 as [|A p p' s t s' a t' a' H [Hg Ha] Hsg Hp Hv|s t v vb s' c u H [Hg Ha] Hp|s t v vb s' c us H [Hg Ha] Hp].
    - split; [apply p_new_inv|apply lockstep_new].
    - split; [eapply prun_inv; eassumption|].
      destruct (lockstep_prun E pc g p p' s t s' a Hsg Hg Ha Hp) as (t2 & Ht2 & Ha2). congruence.
    - split.
      + pose proof (p_commit_inv E pc s v vb Hg) as [Hg' _]. rewrite Hp in Hg'. exact Hg'.
      + destruct (v_commit E t c) as [t' u'] eqn:Hv. eapply lockstep_commit; eassumption.
    - split; [eapply p_commit_vec_inv; eassumption|].
      destruct (v_commit_vec E t (length v) c) as [t' us'] eqn:Hv. eapply lockstep_commit_vec; eassumption.
  Qed.

  Lemma p_eval_iff (s : PState F) lc x : p_eval s lc = Some x <->
    x = lc_val (p_asg s) lc /\ Forall (fun t => p_var s (fst t) <> None) lc.
  Proof.
    split; [apply p_eval_spec|]. intros [-> H]. apply p_eval_total. assumption.
  Qed.

  Lemma batching_exists (w : Var -> F) (n : nat) (cs : list (LC F)) (zs : list F) :
    (exists i, (i < n)%nat /\ w (MulO i) <> w (MulL i) * w (MulR i)) \/ Exists (fun lc => lc_val w lc <> 0) cs ->
    NoDup zs -> (length zs > length cs)%nat ->
    exists z, In z zs /\ forall ys, NoDup ys ->
      Forall (fun y => batched_gates w y n + batched_constraints w z cs = 0) ys ->
      (length ys <= n - 1)%nat.
  Proof.
    intros Hbad Hnd Hlen.
    set (gs := map (fun i => w (MulL i) * w (MulR i) - w (MulO i)) (seq 0 n)).
    assert (Hy : forall z, Exists (fun c => c <> 0) (match gs with [] => [batched_constraints w z cs] | g0 :: r => (g0 + batched_constraints w z cs) :: r end) ->
      forall ys, NoDup ys -> Forall (fun y => batched_gates w y n + batched_constraints w z cs = 0) ys -> (length ys <= n - 1)%nat).
    { intros z Hex ys Hys Hr.
      pose proof (roots_bound _ ys Hex Hys) as Hb.
      assert (Hl : length (match gs with [] => [batched_constraints w z cs] | g0 :: r => (g0 + batched_constraints w z cs) :: r end) = Nat.max 1 n).
      { assert (Hgl : length gs = n) by (unfold gs; rewrite map_length, seq_length; reflexivity).
        destruct gs; cbn [length] in *; lia. }
      rewrite Hl in Hb. enough (length ys < Nat.max 1 n)%nat by lia. apply Hb.
      revert Hr. apply Forall_impl. intros y. rewrite batched_gates_peval. fold gs.
      destruct gs as [|g0 r]; cbn [peval]; intros H0; (etransitivity; [|exact H0]); ring. }
    assert (Hlast : forall g0, g0 <> 0 \/ Exists (fun lc => lc_val w lc <> 0) cs ->
      exists z, In z zs /\ g0 + batched_constraints w z cs <> 0).
    { intros g0 Hg0.
      destruct (Exists_dec (fun z => g0 + batched_constraints w z cs <> 0) zs) as [He|Hne].
      - intros z. destruct (f_eq_dec (g0 + batched_constraints w z cs) 0); [right; congruence|left; assumption].
      - apply Exists_exists in He. exact He.
      - exfalso. assert (Hall : Forall (fun z => peval (g0 :: map (lc_val w) cs) z = 0) zs).
        { apply Forall_forall. intros z Hz. destruct (f_eq_dec (g0 + batched_constraints w z cs) 0) as [He|He].
          - cbn [peval]. rewrite <- He, batched_constraints_peval. ring.
          - exfalso. apply Hne. apply Exists_exists. eauto. }
        apply roots_bound in Hall; [cbn [length] in Hall; rewrite map_length in Hall; lia| |assumption].
        destruct Hg0 as [Hg0|Hg0]; [left; assumption|right].
        apply Exists_exists in Hg0. destruct Hg0 as (lc & Hin & Hlc). apply Exists_exists.
        exists (lc_val w lc). split; [apply in_map; assumption|assumption]. }
    destruct gs as [|g0 r] eqn:Egs.
    - assert (Hn : n = 0%nat) by (apply (f_equal (@length F)) in Egs; unfold gs in Egs; rewrite map_length, seq_length in Egs; exact Egs).
      destruct (Hlast 0) as (z & Hz & Hne).
      { right. destruct Hbad as [(i & Hi & _)|H]; [lia|exact H]. }
      exists z. split; [assumption|]. apply Hy. left. intros He. apply Hne. rewrite He. ring.
    - assert (Hgs : forall i, (i < n)%nat -> nth i (g0 :: r) 0 = w (MulL i) * w (MulR i) - w (MulO i)).
      { intros i Hi. rewrite <- Egs. unfold gs. apply (nth_map_seq (fun i => w (MulL i) * w (MulR i) - w (MulO i))). assumption. }
      assert (Hlr : n = S (length r)) by (apply (f_equal (@length F)) in Egs; unfold gs in Egs; rewrite map_length, seq_length in Egs; exact Egs).
      destruct (Exists_dec (fun c => c <> 0) r) as [He|Hne].
      { intros c. destruct (f_eq_dec c 0); [right; congruence|left; assumption]. }
      + destruct zs as [|z zs]; [cbn in Hlen; lia|]. exists z. split; [left; reflexivity|]. apply Hy. right. assumption.
      + destruct (Hlast g0) as (z & Hz & Hz0).
        { destruct Hbad as [(i & Hi & Hw)|H]; [|right; exact H]. left. intros Hg.
          specialize (Hgs i Hi). destruct i as [|i].
          - cbn in Hgs. apply Hw. symmetry. apply fsub_0_iff. rewrite <- Hgs. exact Hg.
          - cbn in Hgs. apply Hne. apply Exists_exists. exists (nth i r 0). split; [apply nth_In; lia|].
            intros H0. apply Hw. symmetry. apply fsub_0_iff. rewrite <- Hgs. exact H0. }
        exists z. split; [assumption|]. apply Hy. left. assumption.
  Qed.

  Lemma batching_z (w : Var -> F) (cs : list (LC F)) (zs : list F) :
    Exists (fun lc => lc_val w lc <> 0) cs -> NoDup zs -> ~ In 0 zs ->
    Forall (fun z => batched_constraints w z cs = 0) zs -> (length zs < length cs)%nat.
  Proof.
    intros Hex Hnd H0 Hall. rewrite <- (map_length (lc_val w) cs). apply roots_bound; [|assumption|].
    - apply Exists_exists in Hex. destruct Hex as (lc & Hin & Hlc). apply Exists_exists.
      exists (lc_val w lc). split; [apply in_map; assumption|assumption].
    - rewrite Forall_forall in *. intros z Hz. specialize (Hall z Hz). rewrite batched_constraints_peval in Hall.
      destruct (fmul_eq_0 _ _ Hall) as [->|]; [contradiction|assumption].
  Qed.

  Lemma lc_algebra : forall (s : PState F) a b x y k v,
    p_eval s a = Some x -> p_eval s b = Some y ->
    p_eval s (lc_add a b) = Some (x + y) /\ p_eval s (lc_sub a b) = Some (x - y) /\
    p_eval s (lc_neg a) = Some (- x) /\ p_eval s (lc_mul a k) = Some (x * k) /\
    p_eval s (lc_var v) = p_var s v /\ p_eval s (lc_const k) = Some k /\ p_eval s lc_zero = Some 0 /\
    p_eval s (var_mul v k) = option_map (fun z => k * z) (p_var s v).
Proof.
  intros s a b x y k v Ha Hb. apply p_eval_iff in Ha. apply p_eval_iff in Hb. destruct Ha as [-> Ha], Hb as [-> Hb].
  repeat split.
  - apply p_eval_iff. rewrite lc_val_add. split; [reflexivity|apply Forall_app; auto].
  - apply p_eval_iff. rewrite lc_val_sub. split; [reflexivity|]. apply Forall_app; split; [assumption|].
    apply Forall_map. revert Hb. apply Forall_impl. intros [v0 c]; auto.
  - apply p_eval_iff. rewrite lc_val_neg. split; [reflexivity|].
    apply Forall_map. revert Ha. apply Forall_impl. intros [v0 c]; auto.
  - apply p_eval_iff. rewrite lc_val_mul. split; [reflexivity|].
    apply Forall_map. revert Ha. apply Forall_impl. intros [v0 c]; auto.
  - cbn. destruct (p_var s v); [|reflexivity]. cbn. f_equal. ring.
  - cbn. f_equal. ring.
  - cbn. destruct (p_var s v); [|reflexivity]. cbn. f_equal. ring.
Qed.

  Lemma batched_satisfied : forall (w : Var -> F) n cs y z,
    satisfies w cs -> batched_gates w y n + batched_constraints w z cs = 0.
Proof.
  intros w n cs y z (H1 & Hg & Hc).
  unfold batched_gates, batched_constraints. rewrite !fsum_zero; [ring| |].
  - intros q Hq. rewrite Forall_forall in Hc. rewrite (Hc (nth q cs [])) by (apply nth_In; assumption). ring.
  - intros i _. rewrite (Hg i). ring.
Qed.
End More.
