(** * Prover and verifier build the same circuit *)
From Verif Require Import CSSpec CSProofs UtilProofs.
Local Open Scope F_scope.

Lemma Forall2_len {A B} {R : A -> B -> Prop} {l l'} : Forall2 R l l' -> length l = length l'.
Proof. induction 1; cbn; auto. Qed.

Section Lockstep.
  Context {F : Field} {V : VSpace F}.
  Variable E : TrEnv V.
  Variables (pc : PedersenGens V) (g : BPGens V).
  Implicit Types (s : PState F) (t : VState V).

  (** left, right and output wires are equally many *)
  Definition wires_len s : Prop := length (p_aR s) = length (p_aL s) /\ length (p_aO s) = length (p_aL s).
  Lemma gates_len n s : gates_from n s -> wires_len s.
  Proof. intros (H1 & H2 & _). split; assumption. Qed.
  Lemma p_multiply_len s l r s' v : wires_len s -> p_multiply s l r = Some (s', v) -> wires_len s'.
  Proof.
    intros [H1 H2] H. unfold p_multiply in H. destruct (p_eval s l); [|discriminate]. destruct (p_eval s r); [|discriminate].
    cbn [opt_bind] in H. apply Some_inj in H. injection H as <- _. split; cbn; rewrite !app_length; cbn [length]; lia.
  Qed.
  Lemma p_allocate_len s x s' v : wires_len s -> p_allocate s x = Some (s', v) -> wires_len s'.
  Proof.
    intros [H1 H2] H. unfold p_allocate in H. destruct x as [x|]; [|injection H as <- _; split; assumption].
    destruct (p_pend s) as [i|].
    - destruct (nth_error (p_aR s) i); [|discriminate]. destruct (nth_error (p_aL s) i); [|discriminate].
      destruct (nth_error (p_aO s) i); [|discriminate]. injection H as <- _. split; cbn; rewrite !upd_length; assumption.
    - injection H as <- _. split; cbn; rewrite !app_length; cbn [length]; lia.
  Qed.
  Lemma p_allocate_multiplier_len s x s' v : wires_len s -> p_allocate_multiplier s x = (s', v) -> wires_len s'.
  Proof.
    intros [H1 H2] H. unfold p_allocate_multiplier in H. destruct x as [[x y]|]; injection H as <- _; split; try assumption; cbn; rewrite !app_length; cbn [length]; lia.
  Qed.
  Lemma prun_len {A} (p : Prog F A) : forall s s' a, wires_len s -> prun E p s = Some (s', a) -> wires_len s'.
  Proof.
    induction p as [A a0|A|A l r k IH|A x k IH|A x k IH|A c k IH|A lb m k IH|A k IH|A lb k IH|A cb _ k IH]; intros s s' a Hinv H; cbn [prun] in H.
    - injection H as <- _. assumption.
    - discriminate.
    - destruct (p_multiply s l r) as [[s1 v]|] eqn:E1; [|discriminate]. eapply IH; [|exact H]. eapply p_multiply_len; eassumption.
    - destruct (p_allocate s x) as [[s1 v]|] eqn:E1; [|discriminate]. eapply IH; [|exact H]. eapply p_allocate_len; eassumption.
    - destruct (p_allocate_multiplier s x) as [s1 v] eqn:E1. eapply IH; [|exact H]. eapply p_allocate_multiplier_len; eassumption.
    - eapply IH; [|exact H]. exact Hinv.
    - eapply IH; [|exact H]. exact Hinv.
    - eapply IH; eassumption.
    - destruct (challenge_scalar E (p_tr s) lb) as [[c tr]|]; [|discriminate]. eapply IH; [|exact H]. exact Hinv.
    - eapply IH; [|exact H]. exact Hinv.
  Qed.

  Lemma lockstep_prun_len {A} (p : Prog F A) : forall p' s t s' a,
    same_gadget p p' -> wires_len s -> agree pc g s t -> prun E p s = Some (s', a) ->
    exists t', vrun E p' t = Some (t', a) /\ agree pc g s' t'.
  Proof.
    induction p as [A a0|A|A l r k IH|A x k IH|A x k IH|A c k IH|A lb m k IH|A k IH|A lb k IH|A cb _ k IH];
      intros p' s t s' a Hsg Hinv Hag H; inversion Hsg; subst; cbn [prun vrun] in *;
      try match goal with HH : forall v, same_gadget _ _ |- _ => rename HH into Hk end.
    - injection H as <- <-. eauto.
    - discriminate.
    - destruct (p_multiply s l r) as [[s1 v]|] eqn:E1; [|discriminate].
      pose proof (p_multiply_len s l r s1 v Hinv E1) as Hinv1.
      unfold p_multiply in E1. destruct (p_eval s l); [|discriminate]. destruct (p_eval s r); [|discriminate].
      cbn [opt_bind] in E1. apply Some_inj in E1. injection E1 as <- <-.
      destruct Hinv as [HR HO]. destruct Hag as [A1 A2 A3 A4 A5 A6 A7 A8 A9].
      unfold v_multiply. rewrite <- A3. rewrite HR, HO in *.
      eapply IH; [apply Hk|exact Hinv1| |exact H].
      constructor; cbn; auto.
      + rewrite A2. reflexivity.
      + rewrite app_length. cbn. lia.
    - destruct (p_allocate s (Some x0)) as [[s1 v]|] eqn:E1; [|discriminate].
      pose proof (p_allocate_len s (Some x0) s1 v Hinv E1) as Hinv1. unfold p_allocate in E1.
      destruct Hag as [A1 A2 A3 A4 A5 A6 A7 A8 A9]. unfold v_allocate. rewrite <- A4.
      destruct (p_pend s) as [i|] eqn:Hp.
      + destruct (nth_error (p_aR s) i); [|discriminate]. destruct (nth_error (p_aL s) i); [|discriminate].
        destruct (nth_error (p_aO s) i); [|discriminate]. apply Some_inj in E1. injection E1 as <- <-.
        eapply IH; [apply Hk|exact Hinv1| |exact H]. constructor; cbn; auto.
      + apply Some_inj in E1. injection E1 as <- <-. rewrite <- A3.
        eapply IH; [apply Hk|exact Hinv1| |exact H]. constructor; cbn; auto. rewrite app_length; cbn; lia.
    - destruct x0 as [x y]. destruct (p_allocate_multiplier s (Some (x, y))) as [s1 v] eqn:E1.
      pose proof (p_allocate_multiplier_len s (Some (x, y)) _ _ Hinv E1) as Hinv1.
      cbn [p_allocate_multiplier] in E1. injection E1 as <- <-.
      destruct Hinv as [HR HO]. destruct Hag as [A1 A2 A3 A4 A5 A6 A7 A8 A9].
      rewrite HR, HO in H. unfold v_allocate_multiplier. rewrite <- A3.
      eapply IH; [apply Hk|exact Hinv1| |exact H]. constructor; cbn; auto. rewrite app_length; cbn; lia.
    - eapply IH; [eassumption| | |exact H]; [exact Hinv|].
      destruct Hag as [A1 A2 A3 A4 A5 A6 A7 A8 A9]. constructor; cbn; auto. rewrite A2. reflexivity.
    - eapply IH; [eassumption| | |exact H]; [exact Hinv|].
      destruct Hag as [A1 A2 A3 A4 A5 A6 A7 A8 A9]. constructor; cbn; auto. rewrite A1. reflexivity.
    - assert (Em : p_metrics s = v_metrics t).
      { destruct Hag as [A1 A2 A3 A4 A5 A6 A7 A8 A9]. unfold p_metrics, v_metrics.
        rewrite A2, A3, (Forall2_len A5). reflexivity. }
      rewrite <- Em. eapply IH; eauto.
    - rewrite <- (ag_tr _ _ _ _ Hag). destruct (challenge_scalar E (p_tr s) lb) as [[c tr]|]; [|discriminate].
      eapply IH; [apply Hk| | |exact H]; [exact Hinv|].
      destruct Hag as [A1 A2 A3 A4 A5 A6 A7 A8 A9]. constructor; cbn; auto.
    - eapply IH; [eassumption| | |exact H]; [exact Hinv|].
      destruct Hag as [A1 A2 A3 A4 A5 A6 A7 A8 A9]. constructor; cbn; auto.
      apply Forall2_app; [assumption|]. constructor; [assumption|constructor].
  Qed.

  Lemma lockstep_prun {A} (p : Prog F A) : forall p' s t s' a,
    same_gadget p p' -> gates_inv s -> agree pc g s t -> prun E p s = Some (s', a) ->
    exists t', vrun E p' t = Some (t', a) /\ agree pc g s' t'.
  Proof. intros p' s t s' a Hsg Hinv. apply lockstep_prun_len; [exact Hsg|]. exact (gates_len 0 s Hinv). Qed.

  Lemma lockstep_new tr : agree pc g (p_new tr) (v_new tr).
  Proof. constructor; cbn; auto. Qed.

  Lemma lockstep_commit s t v vb s' c u t' u' :
    agree pc g s t -> p_commit E pc s v vb = (s', (c, u)) -> v_commit E t c = (t', u') ->
    u = u' /\ agree pc g s' t'.
  Proof.
    intros [A1 A2 A3 A4 A5 A6 A7 A8 A9] Hp Hv. unfold p_commit in Hp. injection Hp as <- <- <-.
    unfold v_commit in Hv. injection Hv as <- <-. split.
    - f_equal. rewrite A7, zipw_length. lia.
    - constructor; cbn; auto.
      + rewrite A1. reflexivity.
      + rewrite !app_length; cbn; lia.
      + rewrite A7. rewrite zipw_app by assumption. reflexivity.
  Qed.

  Lemma p_commit_vec_spec s v vb s' c us : p_commit_vec E pc g s v vb = Some (s', (c, us)) ->
    (length v <= length (nth 0 (G_vec g) []))%nat /\ c = vec_commitment pc g vb v /\
    us = map (VectorCommit (length (p_vec s))) (seq 0 (length v)) /\
    s' = mkP (append_point E (p_tr s) "V" c) (p_cs s) (p_aL s) (p_aR s) (p_aO s)
             (p_v s) (p_vb s) (p_vec s ++ [(vb, v)]) (p_def s) (p_pend s).
  Proof.
    unfold p_commit_vec, share_G. destruct (nth_error (G_vec g) 0) as [G|] eqn:EG; [|discriminate].
    cbn [option_map opt_bind]. unfold guard. destruct (Nat.eqb_spec (length (pcB_blinding pc :: firstn (length v) G)) (length (vb :: v))) as [Hl|]; [|discriminate].
    intros H. apply Some_inj in H. injection H as <- <- <-.
    cbn [length] in Hl. rewrite firstn_length in Hl.
    rewrite (nth_error_nth _ _ _ EG). split; [lia|]. split.
    - unfold vec_commitment. rewrite (nth_error_nth _ _ _ EG). cbn [msm]. rewrite msm_firstn_r by lia. reflexivity.
    - split; reflexivity.
  Qed.
  Lemma p_commit_vec_total s v vb : (length v <= length (nth 0 (G_vec g) []))%nat -> G_vec g <> [] ->
    exists s' r, p_commit_vec E pc g s v vb = Some (s', r).
  Proof.
    intros Hl Hg. unfold p_commit_vec, share_G. destruct (nth_error (G_vec g) 0) as [G|] eqn:EG.
    - cbn [option_map opt_bind]. unfold guard. rewrite (nth_error_nth _ _ _ EG) in Hl.
      destruct (Nat.eqb_spec (length (pcB_blinding pc :: firstn (length v) G)) (length (vb :: v))) as [|Hn]; [eauto|].
      exfalso. apply Hn. cbn. rewrite firstn_length. lia.
    - apply nth_error_None in EG. destruct (G_vec g); [congruence|cbn in EG; lia].
  Qed.

  Lemma lockstep_commit_vec s t v vb s' c us t' us' :
    agree pc g s t -> p_commit_vec E pc g s v vb = Some (s', (c, us)) ->
    v_commit_vec E t (length v) c = (t', us') ->
    us = us' /\ agree pc g s' t'.
  Proof.
    intros [A1 A2 A3 A4 A5 A6 A7 A8 A9] Hp Hv.
    destruct (p_commit_vec_spec _ _ _ _ _ _ Hp) as (Hl & Hc & Hus & Hs').
    unfold v_commit_vec in Hv. injection Hv as <- <-. split.
    - rewrite Hus, A8, map_length. reflexivity.
    - subst s'. constructor; cbn; auto.
      + rewrite A1. reflexivity.
      + rewrite A8, map_app. cbn. rewrite Hc. reflexivity.
      + apply Forall_app. split; [assumption|]. constructor; [exact Hl|constructor].
  Qed.

  Lemma lockstep_run_all cbs : forall cbs' s t s',
    Forall2 same_gadget cbs cbs' -> gates_inv s -> agree pc g s t ->
    p_run_all E cbs s = Some (Ok s') ->
    exists t', v_run_all E cbs' t = Some (Ok t') /\ agree pc g s' t'.
  Proof.
    induction cbs as [|cb cbs IH]; intros cbs' s t s' H2 Hinv Hag H; inversion H2; subst; cbn [p_run_all v_run_all] in *.
    - injection H as <-. eauto.
    - destruct (prun E cb s) as [[s1 [u|e]]|] eqn:E1; try discriminate.
      destruct (lockstep_prun cb _ s t s1 (Ok u) H3 Hinv Hag E1) as (t1 & Ht1 & Hag1).
      rewrite Ht1. eapply IH; [eassumption| |exact Hag1|exact H].
      eapply prun_inv; eassumption.
  Qed.

  Lemma lockstep_create_randomized s t s' : gates_inv s -> agree pc g s t ->
    p_create_randomized E s = Some (Ok s') ->
    exists t', v_create_randomized E t = Some (Ok t') /\ agree pc g s' t'.
  Proof.
    intros Hinv [A1 A2 A3 A4 A5 A6 A7 A8 A9] H.
    unfold p_create_randomized in H. unfold v_create_randomized. cbn [p_def p_set_pend v_def v_set_num] in *.
    destruct (p_def s) as [|cb cbs] eqn:Ep; inversion A5 as [|? cb' ? cbs' Hcb Hcbs E1 E2]; subst.
    - injection H as <-. eexists. split; [reflexivity|]. constructor; cbn; auto; [rewrite A1; reflexivity|].
      rewrite Ep. exact A5.
    - eapply lockstep_run_all; [constructor; eassumption| | |exact H].
      + apply (gates_same_wires s); [assumption|reflexivity..|right; reflexivity].
      + constructor; cbn; auto. rewrite A1. reflexivity.
  Qed.

  Lemma same_gadget_bind {A B} (p p' : Prog F A) (f f' : A -> Prog F B) :
    same_gadget p p' -> (forall a, same_gadget (f a) (f' a)) -> same_gadget (pbind p f) (pbind p' f').
  Proof.
    intros H Hf. revert B f f' Hf. induction H; intros B f f' Hf; cbn [pbind]; try (constructor; auto); auto.
  Qed.
End Lockstep.
