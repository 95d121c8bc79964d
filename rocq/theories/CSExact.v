(** * What a satisfied prover assignment implies

    [wpx]: facts that hold after the prover's own run whenever the assignment the
    prover ends up with satisfies all constraints.  Used for the converse direction of completeness. *)
From Verif Require Export CSLogic.
From Verif Require Import CSProofs UtilProofs.
Local Open Scope F_scope.

Section Exact.
  Context {F : Field} {V : VSpace F}.
  Variable E : TrEnv V.
  Add Field FFx : (f_th F).

  (* vocabulary of specifications and proofs, no code modelled *)
  Fixpoint wpx {A} (w : Var -> F) (p : Prog F A) (Q : A -> Prop) : Prop :=
    match p with
    | PRet a => Q a
    | PPanic => True
    | PMul l r k => forall lv rv ov, w lv = lc_val w l -> w rv = lc_val w r -> w ov = w lv * w rv -> wpx w (k (lv, rv, ov)) Q
    | PAlloc None k => forall r, wpx w (k r) Q
    | PAlloc (Some x) k => forall v, w v = x -> wpx w (k (Ok v)) Q
    | PAllocMul None k => forall r, wpx w (k r) Q
    | PAllocMul (Some (x, y)) k => forall lv rv ov, w lv = x -> w rv = y -> w ov = x * y -> wpx w (k (Ok (lv, rv, ov))) Q
    | PConstrain c k => lc_val w c = 0 -> wpx w k Q
    | PAppend _ _ k => wpx w k Q
    | PMetrics k => forall m, wpx w (k m) Q
    | PChallenge _ k => forall c, wpx w (k c) Q
    | PSpecify _ k => wpx w k Q
    end.

  Lemma prun_cs {A} (p : Prog F A) : forall (s s' : PState F) a, prun E p s = Some (s', a) -> exists r, p_cs s' = p_cs s ++ r.
  Proof.
    induction p as [A a0|A|A l r k IH|A x k IH|A x k IH|A c k IH|A lb m k IH|A k IH|A lb k IH|A cb _ k IH]; intros s s' a H; cbn [prun] in H.
    - injection H as <- _. exists []. rewrite app_nil_r; reflexivity.
    - discriminate.
    - destruct (p_multiply s l r) as [[s1 v]|] eqn:E1; [|discriminate]. apply IH in H. destruct H as [z Hz].
      unfold p_multiply in E1. destruct (p_eval s l); [|discriminate]. destruct (p_eval s r); [|discriminate]. cbn [opt_bind] in E1.
      apply Some_inj in E1. injection E1 as <- _. cbn in Hz. rewrite Hz. rewrite <- !app_assoc. eauto.
    - destruct (p_allocate s x) as [[s1 v]|] eqn:E1; [|discriminate]. apply p_allocate_frame in E1. destruct E1 as [_ E1]. apply IH in H. rewrite E1 in H. exact H.
    - destruct (p_allocate_multiplier s x) as [s1 v] eqn:E1. apply IH in H. assert (Hc : p_cs s1 = p_cs s).
      { destruct x as [[x y]|]; injection E1 as <- _; reflexivity. } rewrite Hc in H. exact H.
    - apply IH in H. destruct H as [z Hz]. cbn in Hz. rewrite Hz. rewrite <- !app_assoc. eauto.
    - apply IH in H; exact H.
    - apply IH in H; exact H.
    - destruct (challenge_scalar E (p_tr s) lb) as [[c t]|]; [|discriminate]. apply IH in H; exact H.
    - apply IH in H; exact H.
  Qed.
  Lemma issued_keep {A} (p : Prog F A) s s' a v x : gates_inv s -> prun E p s = Some (s', a) -> issued s v -> p_var s v = Some x -> p_asg s' v = x.
  Proof.
    intros Hg H Hi Hv. destruct (prun_inv E p s s' a Hg H) as [_ He]. rewrite (ext_asg _ _ _ He Hi). apply issued_var. exact Hv.
  Qed.

  Lemma wpx_sound {A} (p : Prog F A) : forall Q (s s' : PState F) a,
    gates_inv s -> prun E p s = Some (s', a) -> satisfies (p_asg s') (p_cs s') -> wpx (p_asg s') p Q -> Q a.
  Proof.
    induction p as [A a0|A|A l r k IH|A x k IH|A x k IH|A c k IH|A lb m k IH|A k IH|A lb k IH|A cb _ k IH];
      intros Q s s' a Hg H Hs HW; cbn [prun wpx] in *.
    - injection H as -> <-. assumption.
    - discriminate.
    - destruct (p_multiply s l r) as [[s1 [[lv rv] ov]]|] eqn:E1; [|discriminate].
      pose proof (p_multiply_inv s l r _ _ Hg E1) as [Hg1 He1].
      pose proof (p_multiply_returns _ _ _ _ _ _ _ Hg E1) as (_ & _ & [Il Vl] & [Ir Vr] & [Io (xl & xr & El & Er & Vo)]).
      eapply IH; [exact Hg1|exact H|exact Hs|].
      destruct (prun_cs _ _ _ _ H) as [z Hz].
      assert (Hc : p_cs s1 = p_cs s ++ [l ++ [(lv, - (1))]; r ++ [(rv, - (1))]]).
      { unfold p_multiply in E1. rewrite El, Er in E1. cbn [opt_bind] in E1. apply Some_inj in E1. injection E1 as <- <- <- _. cbn. rewrite <- app_assoc. reflexivity. }
      rewrite Hc in Hz. pose proof Hs as (_ & _ & Hf). rewrite Hz in Hf. rewrite !Forall_app in Hf. destruct Hf as [[_ Hab] _].
      rewrite Forall_cons_iff in Hab. destruct Hab as [Ha Hb]. apply Forall_inv in Hb. rewrite lc_val_app in Ha, Hb. cbn [lc_val] in Ha, Hb.
      rewrite El in Vl. rewrite Er in Vr.
      apply HW; [symmetry; apply fsub_0_iff; rewrite <- Ha; ring|symmetry; apply fsub_0_iff; rewrite <- Hb; ring|].
      rewrite (issued_keep _ _ _ _ _ _ Hg1 H Il Vl), (issued_keep _ _ _ _ _ _ Hg1 H Ir Vr), (issued_keep _ _ _ _ _ _ Hg1 H Io Vo). reflexivity.
    - destruct x as [x|].
      + destruct (p_allocate s (Some x)) as [[s1 r]|] eqn:E1; [|discriminate].
        pose proof (p_allocate_inv _ _ _ _ Hg E1) as [Hg1 He1]. destruct (p_allocate_returns _ _ _ _ Hg E1) as (v & -> & Iv & Vv).
        eapply IH; [exact Hg1|exact H|exact Hs|]. apply HW. eapply issued_keep; eassumption.
      + destruct (p_allocate s None) as [[s1 r]|] eqn:E1; [|discriminate]. pose proof (p_allocate_inv _ _ _ _ Hg E1) as [Hg1 He1].
        eapply IH; [exact Hg1|exact H|exact Hs|]. apply HW.
    - destruct (p_allocate_multiplier s x) as [s1 r] eqn:E1. pose proof (p_allocate_multiplier_inv s _ _ _ Hg E1) as [Hg1 He1].
      eapply IH; [exact Hg1|exact H|exact Hs|]. destruct x as [[x y]|]; [|apply HW].
      destruct (p_allocate_multiplier_returns _ _ _ _ _ Hg E1) as (lv & rv & ov & -> & Il & Ir & Io & Vl & Vr & Vo).
      apply HW; eapply issued_keep; eassumption.
    - destruct (p_constrain_inv s c Hg) as [Hg1 He1]. eapply IH; [exact Hg1|exact H|exact Hs|]. apply HW.
      destruct (prun_cs _ _ _ _ H) as [z Hz]. cbn in Hz. destruct Hs as (_ & _ & Hf). rewrite Hz in Hf.
      rewrite !Forall_app in Hf. destruct Hf as [[_ Ha] _]. apply Forall_inv in Ha. exact Ha.
    - destruct (set_tr_inv s (append_message (p_tr s) lb m) Hg) as [Hg1 He1]. eapply IH; [exact Hg1|exact H|exact Hs|exact HW].
    - eapply IH; [exact Hg|exact H|exact Hs|]. apply HW.
    - destruct (challenge_scalar E (p_tr s) lb) as [[c t]|]; [|discriminate]. destruct (set_tr_inv s t Hg) as [Hg1 He1].
      eapply IH; [exact Hg1|exact H|exact Hs|]. apply HW.
    - destruct (set_def_inv s (p_def s ++ [cb]) Hg) as [Hg1 He1]. eapply IH; [exact Hg1|exact H|exact Hs|exact HW].
  Qed.
  Lemma wpx_mono {A} w (p : Prog F A) : forall (Q Q' : A -> Prop), (forall a, Q a -> Q' a) -> wpx w p Q -> wpx w p Q'.
  Proof.
    induction p as [A a0|A|A l r k IH|A x k IH|A x k IH|A c k IH|A lb m k IH|A k IH|A lb k IH|A cb _ k IH]; intros Q Q' HQ; cbn [wpx]; eauto.
    - destruct x; eauto.
    - destruct x as [[? ?]|]; eauto.
  Qed.
  Lemma wpx_bind {A B} w (p : Prog F A) : forall (f : A -> Prog F B) Q, wpx w p (fun a => wpx w (f a) Q) -> wpx w (pbind p f) Q.
  Proof.
    induction p as [A a0|A|A l r k IH|A x k IH|A x k IH|A c k IH|A lb m k IH|A k IH|A lb k IH|A cb _ k IH]; intros f Q; cbn [wpx pbind]; auto.
    - destruct x; auto.
    - destruct x as [[? ?]|]; auto.
  Qed.
End Exact.
