(** * Program logics for gadgets

    [wps]: what every satisfying assignment of the verifier's circuit must
    fulfil (soundness).  [wpc]: the prover's run succeeds and its assignment
    satisfies the constraints (completeness).  Proof machinery only; the
    property theorems are stated with [vrun]/[prun] and [satisfies]. *)
From Verif Require Export CSSpec.
From Verif Require Import CSProofs UtilProofs.
Local Open Scope F_scope.

Section Logic.
  Context {F : Field}.
  Add Field FFlog : (f_th F).
  Implicit Types (ok : Var -> Prop).

  (* vocabulary of specifications and proofs, no code modelled *)
  Fixpoint wps {A} (w : Var -> F) (p : Prog F A) (Q : A -> Prop) : Prop :=
    match p with
    | PRet a => Q a
    | PPanic => True
    | PMul l r k => forall lv rv ov, w lv = lc_val w l -> w rv = lc_val w r -> w ov = w lv * w rv ->
        wps w (k (lv, rv, ov)) Q
    | PAlloc _ k => forall v, wps w (k (Ok v)) Q
    | PAllocMul _ k => forall lv rv ov, w ov = w lv * w rv -> wps w (k (Ok (lv, rv, ov))) Q
    | PConstrain c k => lc_val w c = 0 -> wps w k Q
    | PAppend _ _ k => wps w k Q
    | PMetrics k => forall m, wps w (k m) Q
    | PChallenge _ k => forall c, wps w (k c) Q
    | PSpecify _ k => wps w k Q
    end.

  Lemma wps_mono {A} w (p : Prog F A) (Q Q' : A -> Prop) : (forall a, Q a -> Q' a) -> wps w p Q -> wps w p Q'.
  Proof. revert Q Q'. induction p; intros Q Q' HQ; cbn [wps]; eauto. Qed.
  Lemma wps_bind {A B} w (p : Prog F A) (f : A -> Prog F B) Q :
    wps w p (fun a => wps w (f a) Q) -> wps w (pbind p f) Q.
  Proof. revert f Q. induction p; intros f Q; cbn [wps pbind]; auto. Qed.

  (** ok-set logic for completeness *)
  Definition lc_ok (ok : Var -> Prop) (lc : LC F) : Prop := Forall (fun t => ok (fst t)) lc.
  (* vocabulary of specifications and proofs, no code modelled *)
  Definition ok_add (ok : Var -> Prop) (v : Var) : Var -> Prop := fun u => ok u \/ u = v.
  (* vocabulary of specifications and proofs, no code modelled *)
  Definition ok_sub (ok ok' : Var -> Prop) : Prop := forall v, ok v -> ok' v.

  (* vocabulary of specifications and proofs, no code modelled *)
  Fixpoint wpc {A} (w : Var -> F) (ok : Var -> Prop) (p : Prog F A) (Q : (Var -> Prop) -> A -> Prop) : Prop :=
    match p with
    | PRet a => Q ok a
    | PPanic => False
    | PMul l r k => lc_ok ok l /\ lc_ok ok r /\
        forall lv rv ov, w lv = lc_val w l -> w rv = lc_val w r -> w ov = lc_val w l * lc_val w r ->
        wpc w (ok_add (ok_add (ok_add ok lv) rv) ov) (k (lv, rv, ov)) Q
    | PAlloc a k => match a with
                    | None => False
                    | Some x => forall v, w v = x -> wpc w (ok_add ok v) (k (Ok v)) Q
                    end
    | PAllocMul a k => match a with
                    | None => False
                    | Some (x, y) => forall lv rv ov, w lv = x -> w rv = y -> w ov = x * y ->
                        wpc w (ok_add (ok_add (ok_add ok lv) rv) ov) (k (Ok (lv, rv, ov))) Q
                    end
    | PConstrain c k => lc_ok ok c /\ lc_val w c = 0 /\ wpc w ok k Q
    | PAppend _ _ k => wpc w ok k Q
    | PMetrics k => forall m, wpc w ok (k m) Q
    | PChallenge _ k => False
    | PSpecify _ k => False
    end.

  Local Ltac useIH := match goal with H : context[wpc] |- _ => solve [eapply H; eauto] end.

  Lemma wpc_mono {A} w (p : Prog F A) : forall ok (Q Q' : (Var -> Prop) -> A -> Prop),
    (forall ok' a, Q ok' a -> Q' ok' a) -> wpc w ok p Q -> wpc w ok p Q'.
  Proof.
    induction p; intros ok Q Q' HQ; cbn [wpc]; auto.
    - intros (?&?&Hk). split; [assumption|]. split; [assumption|]. intros. useIH.
    - destruct a; [|auto]. intros Hk v Hv. useIH.
    - destruct a as [[x y]|]; [|auto]. intros Hk lv rv ov Hl Hr Ho. useIH.
    - intros (?&?&Hk). split; [assumption|]. split; [assumption|]. useIH.
    - intros Hk. useIH.
    - intros Hk mm. useIH.
  Qed.
  Lemma wpc_bind {A B} w (p : Prog F A) : forall ok (f : A -> Prog F B) Q,
    wpc w ok p (fun ok' a => wpc w ok' (f a) Q) -> wpc w ok (pbind p f) Q.
  Proof.
    induction p; intros ok f Q; cbn [wpc pbind]; auto.
    - intros (?&?&Hk). split; [assumption|]. split; [assumption|]. intros. useIH.
    - destruct a; [|auto]. intros Hk v Hv. useIH.
    - destruct a as [[x y]|]; [|auto]. intros Hk lv rv ov Hl Hr Ho. useIH.
    - intros (?&?&Hk). split; [assumption|]. split; [assumption|]. useIH.
  Qed.

  Lemma ok_sub_refl ok : ok_sub ok ok. Proof. intros v; auto. Qed.
  Lemma ok_sub_trans a b c : ok_sub a b -> ok_sub b c -> ok_sub a c. Proof. intros H1 H2 v; auto. Qed.
  Lemma ok_sub_add ok ok' v : ok_sub ok ok' -> ok_sub ok (ok_add ok' v).
  Proof. intros H u Hu. left. auto. Qed.
  Lemma ok_add_in ok v : ok_add ok v v. Proof. right. reflexivity. Qed.
  Lemma lc_ok_sub ok ok' lc : ok_sub ok ok' -> lc_ok ok lc -> lc_ok ok' lc.
  Proof. intros H. apply Forall_impl. intros a. apply H. Qed.
  Lemma lc_ok_add ok a b : lc_ok ok a -> lc_ok ok b -> lc_ok ok (lc_add a b).
  Proof. intros. apply Forall_app; auto. Qed.
  Lemma lc_ok_map ok (a : LC F) f : lc_ok ok a -> lc_ok ok (map (fun '(v, c) => (v, f c)) a).
  Proof. unfold lc_ok. rewrite Forall_map. apply Forall_impl. intros [v c]; auto. Qed.
  Lemma lc_ok_sub_lc ok a b : lc_ok ok a -> lc_ok ok b -> lc_ok ok (lc_sub a b).
  Proof. intros. apply Forall_app; split; [assumption|]. apply (lc_ok_map ok b fopp). assumption. Qed.
  Lemma lc_ok_neg ok a : lc_ok ok a -> lc_ok ok (lc_neg a).
  Proof. apply (lc_ok_map ok a fopp). Qed.
  Lemma lc_ok_mul ok a s : lc_ok ok a -> lc_ok ok (lc_mul a s).
  Proof. apply (lc_ok_map ok a (fun c => c * s)). Qed.
  Lemma lc_ok_var ok v : ok v -> lc_ok ok (lc_var v).
  Proof. intros. repeat constructor. assumption. Qed.
  Lemma lc_ok_var_mul ok v s : ok v -> lc_ok ok (var_mul v s).
  Proof. intros. repeat constructor. assumption. Qed.
  Lemma lc_ok_const ok c : ok One -> lc_ok ok (lc_const c).
  Proof. intros. repeat constructor. assumption. Qed.
  Lemma lc_ok_zero ok : lc_ok ok lc_zero. Proof. constructor. Qed.

  (** An assignment agreeing with what the prover holds. *)
  Definition agrees (w : Var -> F) (s : PState F) : Prop := forall v, issued s v -> w v = p_asg s v.

  (** Prover state whose constraints all hold and whose gates from number [n] on hold. *)
  Definition honest_from (n : nat) (s : PState F) : Prop :=
    gates_from n s /\ Forall (fun lc => lc_ok (issued s) lc /\ lc_val (p_asg s) lc = 0) (p_cs s).

  Lemma agrees_self s : agrees (p_asg s) s. Proof. intros v _. reflexivity. Qed.
  Lemma agrees_one w s : agrees w s -> w One = 1.
  Proof. intros H. rewrite H; [reflexivity|]. split; [discriminate|]. intros i _; split; discriminate. Qed.
  Lemma ext_issued (s s' : PState F) v : ext s s' -> issued s v -> issued s' v.
  Proof.
    intros He [H1 H2]. destruct (p_var s v) as [x|] eqn:E; [|congruence].
    destruct (He v x) as [HA HB]; [split; [congruence|assumption]|assumption|]. assumption.
  Qed.
  Lemma ext_asg (s s' : PState F) v : ext s s' -> issued s v -> p_asg s' v = p_asg s v.
  Proof.
    intros He Hi. destruct Hi as [H1 H2]. unfold p_asg. destruct (p_var s v) as [x|] eqn:E; [|congruence].
    destruct (He v x) as [HA HB]; [split; [congruence|assumption]|assumption|]. rewrite HB. reflexivity.
  Qed.
  Lemma agrees_ext w (s s' : PState F) : ext s s' -> agrees w s' -> agrees w s.
  Proof. intros He H v Hv. rewrite H by (eapply ext_issued; eauto). apply ext_asg; assumption. Qed.
  Lemma lc_val_agree (w w' : Var -> F) (P : Var -> Prop) lc : (forall v, P v -> w v = w' v) -> lc_ok P lc -> lc_val w lc = lc_val w' lc.
  Proof. intros H Hl. apply lc_val_ext. intros v Hv. apply H. rewrite in_map_iff in Hv. destruct Hv as (t & <- & Ht).
    unfold lc_ok in Hl. rewrite Forall_forall in Hl. apply (Hl t Ht). Qed.
  Lemma honest_ext n (s s' : PState F) : honest_from n s -> ext s s' -> gates_from n s' -> p_cs s' = p_cs s -> honest_from n s'.
  Proof.
    intros [_ Hc] He Hg Hcs. split; [assumption|]. rewrite Hcs. revert Hc. apply Forall_impl. intros lc [Ho Hv]. split.
    - eapply lc_ok_sub; [|exact Ho]. intros v. apply ext_issued. assumption.
    - rewrite <- Hv. eapply lc_val_agree; [|exact Ho]. intros v. apply ext_asg. assumption.
  Qed.
  Lemma p_asg_gates (s : PState F) : gates_inv s -> gates_ok (p_asg s).
  Proof.
    intros (H1 & H2 & H3 & H4) i. unfold p_asg, p_var. specialize (H3 i).
    assert (HH : forall l : list F, match nth_error l i with Some x => x | None => 0 end = nth i l 0).
    { intros l. symmetry. destruct (nth_error l i) eqn:E; [apply nth_error_nth; assumption|apply nth_overflow, nth_error_None; assumption]. }
    rewrite !HH. assumption.
  Qed.
  Lemma honest_satisfies s : honest_from 0 s -> satisfies (p_asg s) (p_cs s).
  Proof.
    intros [Hg Hc]. split; [reflexivity|]. split; [apply p_asg_gates; assumption|].
    revert Hc. apply Forall_impl. intros lc [_ H]. exact H.
  Qed.
  Lemma honest_new tr : honest_from 0 (p_new tr).
  Proof. split; [apply p_new_inv|constructor]. Qed.
End Logic.
(** Prover state whose constraints and gates all hold. *)
Notation honest := (honest_from 0).
Arguments honest_new {F} tr.

Section LogicSound.
  Context {F : Field} {V : VSpace F}.
  Variable E : TrEnv V.
  Add Field FFlogs : (f_th F).
  Implicit Types (ok : Var -> Prop).

  Lemma vrun_cs {A} (p : Prog F A) : forall (s s' : VState V) a, vrun E p s = Some (s', a) ->
    exists r, v_cs s' = v_cs s ++ r.
  Proof.
    induction p as [A a0|A|A l r k IH|A x k IH|A x k IH|A c k IH|A lb m k IH|A k IH|A lb k IH|A cb _ k IH];
      intros s s' a H; cbn [vrun] in H.
    - injection H as <- _. exists []. rewrite app_nil_r; reflexivity.
    - discriminate.
    - unfold v_multiply in H. apply IH in H. destruct H as [z Hz]. cbn in Hz. rewrite Hz.
      rewrite <- !app_assoc. eauto.
    - unfold v_allocate in H. destruct (v_pend s); apply IH in H; exact H.
    - unfold v_allocate_multiplier in H. apply IH in H; exact H.
    - apply IH in H. destruct H as [z Hz]. cbn in Hz. rewrite Hz. rewrite <- !app_assoc. eauto.
    - apply IH in H; exact H.
    - apply IH in H; exact H.
    - destruct (challenge_scalar E (v_tr s) lb) as [[c t]|]; [|discriminate]. apply IH in H; exact H.
    - apply IH in H; exact H.
  Qed.
  Lemma satisfies_app (w : Var -> F) a b : satisfies w (a ++ b) -> satisfies w a.
  Proof. intros (H1 & H2 & H3). split; [assumption|]. split; [assumption|]. apply Forall_app in H3. tauto. Qed.

  (** Every satisfying assignment of the circuit meets what [wps] derives. *)
  Lemma wps_sound {A} (p : Prog F A) : forall w Q (s s' : VState V) a,
    (w One = 1 -> gates_ok w -> wps w p Q) -> vrun E p s = Some (s', a) -> satisfies w (v_cs s') -> Q a.
  Proof.
    intros w Q s s' a HW H Hs. assert (H1 : w One = 1) by apply Hs. assert (Hg : gates_ok w) by apply Hs.
    specialize (HW H1 Hg). revert Q s s' a HW H Hs.
    induction p as [A a0|A|A l r k IH|A x k IH|A x k IH|A c k IH|A lb m k IH|A k IH|A lb k IH|A cb _ k IH];
      intros Q s s' a HW H Hs; cbn [vrun wps] in *.
    - injection H as _ <-. assumption.
    - discriminate.
    - unfold v_multiply in H. eapply IH; [|exact H|exact Hs].
      destruct (vrun_cs _ _ _ _ H) as [z Hz]. cbn in Hz. destruct Hs as (_ & _ & Hf). rewrite Hz in Hf.
      rewrite !Forall_app in Hf. destruct Hf as [[[_ Ha] Hb] _].
      apply Forall_inv in Ha. apply Forall_inv in Hb.
      rewrite lc_val_app in Ha, Hb. cbn [lc_val] in Ha, Hb.
      apply HW; [symmetry; apply fsub_0_iff; rewrite <- Ha; ring|symmetry; apply fsub_0_iff; rewrite <- Hb; ring|apply Hg].
    - unfold v_allocate in H. destruct (v_pend s); eapply IH; try exact H; auto.
    - unfold v_allocate_multiplier in H. eapply IH; [|exact H|exact Hs]. apply HW, Hg.
    - eapply IH; [|exact H|exact Hs]. apply HW.
      destruct (vrun_cs _ _ _ _ H) as [z Hz]. cbn in Hz. destruct Hs as (_ & _ & Hf). rewrite Hz in Hf.
      rewrite !Forall_app in Hf. destruct Hf as [[_ Ha] _]. apply Forall_inv in Ha. exact Ha.
    - eapply IH; [|exact H|exact Hs]; auto.
    - eapply IH; [|exact H|exact Hs]; auto.
    - destruct (challenge_scalar E (v_tr s) lb) as [[c t]|]; [|discriminate]. eapply IH; [|exact H|exact Hs]; auto.
    - eapply IH; [|exact H|exact Hs]; auto.
  Qed.

  (** What stays the same in the prover while gadget code runs. *)
  Definition frame (s s' : PState F) : Prop :=
    p_v s' = p_v s /\ p_vb s' = p_vb s /\ p_vec s' = p_vec s /\ p_def s' = p_def s.
  Lemma frame_refl (s : PState F) : frame s s. Proof. repeat split. Qed.

  Lemma p_multiply_frame (s s' : PState F) l r v : p_multiply s l r = Some (s', v) -> frame s s'.
  Proof.
    unfold p_multiply. destruct (p_eval s l); [|discriminate]. destruct (p_eval s r); [|discriminate].
    cbn [opt_bind]. intros H. apply Some_inj in H. injection H as <- _. repeat split.
  Qed.
  Lemma p_allocate_frame (s s' : PState F) x v : p_allocate s x = Some (s', v) -> frame s s' /\ p_cs s' = p_cs s.
  Proof.
    unfold p_allocate. destruct x as [x|]; [|intros H; injection H as <- _; repeat split].
    destruct (p_pend s) as [i|].
    - destruct (nth_error (p_aR s) i); [|discriminate]. destruct (nth_error (p_aL s) i); [|discriminate].
      destruct (nth_error (p_aO s) i); [|discriminate]. intros H. injection H as <- _. repeat split.
    - intros H. injection H as <- _. repeat split.
  Qed.

  Lemma issued_var (s : PState F) v x : p_var s v = Some x -> p_asg s v = x.
  Proof. unfold p_asg. intros ->. reflexivity. Qed.
  Lemma p_eval_agrees (s : PState F) lc : lc_ok (issued s) lc -> p_eval s lc = Some (lc_val (p_asg s) lc).
  Proof.
    intros H. apply p_eval_total. revert H. apply Forall_impl. intros t Ht. apply Ht.
  Qed.

  (** The prover's run of gadget code that meets [wpc] succeeds, keeps all
      constraints satisfied and establishes the postcondition. *)
  Lemma wpc_sound {A} {n} (p : Prog F A) : forall (Q : (Var -> F) -> (Var -> Prop) -> A -> Prop) s ok,
    honest_from n s -> ok_sub ok (issued s) -> (forall w, agrees w s -> wpc w ok p (Q w)) ->
    exists s' a ok', prun E p s = Some (s', a) /\ honest_from n s' /\ ext s s' /\ frame s s' /\
      ok_sub ok' (issued s') /\ forall w, agrees w s' -> Q w ok' a.
  Proof.
    induction p as [A a0|A|A l r k IH|A x k IH|A x k IH|A c k IH|A lb m k IH|A k IH|A lb k IH|A cb _ k IH];
      intros Q s ok Hh Hok HW; cbn [prun wpc] in *; pose proof Hh as [Hg Hc].
    - exists s, a0, ok. split; [reflexivity|]. split; [exact Hh|]. split; [apply ext_refl|].
      split; [apply frame_refl|]. split; [exact Hok|exact HW].
    - exfalso. exact (HW _ (agrees_self s)).
    - destruct (HW _ (agrees_self s)) as (Hl & Hr & _).
      assert (Hl' : lc_ok (issued s) l) by (eapply lc_ok_sub; eassumption).
      assert (Hr' : lc_ok (issued s) r) by (eapply lc_ok_sub; eassumption).
      destruct (p_multiply s l r) as [[s1 [[lv rv] ov]]|] eqn:E1.
      2:{ unfold p_multiply in E1. rewrite (p_eval_agrees _ _ Hl'), (p_eval_agrees _ _ Hr') in E1. discriminate. }
      pose proof (p_multiply_inv s l r _ _ Hg E1) as [Hg1 He1].
      pose proof (p_multiply_frame _ _ _ _ _ E1) as Hf1.
      pose proof (p_multiply_returns _ _ _ _ _ _ _ Hg E1) as (_ & _ & [Il Vl] & [Ir Vr] & [Io Vo]).
      rewrite (p_eval_agrees _ _ Hl') in Vl, Vo. rewrite (p_eval_agrees _ _ Hr') in Vr, Vo.
      assert (Vo' : p_asg s1 ov = lc_val (p_asg s) l * lc_val (p_asg s) r).
      { destruct Vo as (x & y & Hx & Hy & Vo). apply Some_inj in Hx. apply Some_inj in Hy. subst. apply issued_var; assumption. }
      apply issued_var in Vl. apply issued_var in Vr.
      assert (Hh1 : honest_from n s1).
      { split; [assumption|].
        assert (Hlv : lc_val (p_asg s1) l = lc_val (p_asg s) l) by (eapply lc_val_agree; [|exact Hl']; intros; apply ext_asg; assumption).
        assert (Hrv : lc_val (p_asg s1) r = lc_val (p_asg s) r) by (eapply lc_val_agree; [|exact Hr']; intros; apply ext_asg; assumption).
        assert (Hcs : p_cs s1 = (p_cs s ++ [l ++ [(lv, - (1))]]) ++ [r ++ [(rv, - (1))]]).
        { unfold p_multiply in E1. destruct (p_eval s l); [|discriminate]. destruct (p_eval s r); [|discriminate].
          cbn [opt_bind] in E1. apply Some_inj in E1. injection E1 as <- <- <- <-. reflexivity. }
        rewrite Hcs. apply Forall_app; split; [apply Forall_app; split|].
        - revert Hc. apply Forall_impl. intros lc [Ho Hv]. split.
          + eapply lc_ok_sub; [|exact Ho]. intros v. apply ext_issued. assumption.
          + rewrite <- Hv. eapply lc_val_agree; [|exact Ho]. intros v. apply ext_asg. assumption.
        - constructor; [|constructor]. split.
          + apply Forall_app; split; [|constructor; [assumption|constructor]].
            eapply lc_ok_sub; [|exact Hl']. intros v. apply ext_issued. assumption.
          + rewrite lc_val_app. cbn [lc_val]. rewrite Vl, Hlv. ring.
        - constructor; [|constructor]. split.
          + apply Forall_app; split; [|constructor; [assumption|constructor]].
            eapply lc_ok_sub; [|exact Hr']. intros v. apply ext_issued. assumption.
          + rewrite lc_val_app. cbn [lc_val]. rewrite Vr, Hrv. ring. }
      destruct (IH (lv, rv, ov) Q s1 (ok_add (ok_add (ok_add ok lv) rv) ov) Hh1) as (s' & a & ok' & H1 & H2 & H3 & H4 & H5 & H6).
      + intros v [[[Hv|Hv]|Hv]|Hv]; subst; try assumption. eapply ext_issued; [exact He1|]. apply Hok, Hv.
      + intros w Hw. assert (Hws := agrees_ext _ _ _ He1 Hw). destruct (HW w Hws) as (_ & _ & HWk).
        assert (Ll : lc_val w l = lc_val (p_asg s) l) by (eapply lc_val_agree; [|exact Hl']; exact Hws).
        assert (Lr : lc_val w r = lc_val (p_asg s) r) by (eapply lc_val_agree; [|exact Hr']; exact Hws).
        apply HWk; rewrite ?Ll, ?Lr; (etransitivity; [apply Hw; assumption|assumption]).
      + exists s', a, ok'. split; [exact H1|]. split; [exact H2|]. split; [eapply ext_trans; eassumption|].
        split; [|split; assumption]. unfold frame in *. intuition congruence.
    - destruct x as [x|]; [|exfalso; exact (HW _ (agrees_self s))].
      destruct (p_allocate_total s (Some x) Hg) as (s1 & r & E1).
      pose proof (p_allocate_inv s (Some x) s1 r Hg E1) as [Hg1 He1].
      destruct (p_allocate_frame _ _ _ _ E1) as [Hf1 Hcs].
      destruct (p_allocate_returns _ _ _ _ Hg E1) as (v & -> & Iv & Vv). apply issued_var in Vv.
      rewrite E1.
      destruct (IH (Ok v) Q s1 (ok_add ok v) (honest_ext _ _ _ Hh He1 Hg1 Hcs)) as (s' & a & ok' & H1 & H2 & H3 & H4 & H5 & H6).
      + intros u [Hu|Hu]; subst; try assumption. eapply ext_issued; [exact He1|]. apply Hok, Hu.
      + intros w Hw. apply HW; [eapply agrees_ext; eassumption|]. rewrite (Hw v Iv). exact Vv.
      + exists s', a, ok'. split; [exact H1|]. split; [exact H2|]. split; [eapply ext_trans; eassumption|].
        split; [|split; assumption]. unfold frame in *. intuition congruence.
    - destruct x as [[x y]|]; [|exfalso; exact (HW _ (agrees_self s))].
      destruct (p_allocate_multiplier s (Some (x, y))) as [s1 r] eqn:E1.
      pose proof (p_allocate_multiplier_inv s _ _ _ Hg E1) as [Hg1 He1].
      assert (Hcs : p_cs s1 = p_cs s) by (injection E1 as <- _; reflexivity).
      assert (Hf1 : frame s s1) by (injection E1 as <- _; repeat split).
      destruct (p_allocate_multiplier_returns _ _ _ _ _ Hg E1) as (lv & rv & ov & -> & Il & Ir & Io & Vl & Vr & Vo).
      apply issued_var in Vl. apply issued_var in Vr. apply issued_var in Vo.
      destruct (IH (Ok (lv, rv, ov)) Q s1 (ok_add (ok_add (ok_add ok lv) rv) ov) (honest_ext _ _ _ Hh He1 Hg1 Hcs))
        as (s' & a & ok' & H1 & H2 & H3 & H4 & H5 & H6).
      + intros v [[[Hv|Hv]|Hv]|Hv]; subst; try assumption. eapply ext_issued; [exact He1|]. apply Hok, Hv.
      + intros w Hw. apply HW; [eapply agrees_ext; eassumption| | |];
          (etransitivity; [apply Hw; assumption|assumption]).
      + exists s', a, ok'. split; [exact H1|]. split; [exact H2|]. split; [eapply ext_trans; eassumption|].
        split; [|split; assumption]. unfold frame in *. intuition congruence.
    - destruct (HW _ (agrees_self s)) as (Hlc & Hv & _).
      destruct (p_constrain_inv s c Hg) as [Hg1 He1].
      assert (Hlc' : lc_ok (issued s) c) by (eapply lc_ok_sub; eassumption).
      destruct (IH Q (p_constrain s c) ok) as (s' & a & ok' & H1 & H2 & H3 & H4 & H5 & H6).
      + split; [assumption|]. cbn [p_cs p_constrain]. apply Forall_app. split; [exact Hc|]. constructor; [|constructor]. split; assumption.
      + exact Hok.
      + intros w Hw. apply HW. exact Hw.
      + exists s', a, ok'. split; [exact H1|]. split; [exact H2|]. split; [eapply ext_trans; [exact He1|exact H3]|]. auto.
    - destruct (set_tr_inv s (append_message (p_tr s) lb m) Hg) as [Hg1 He1].
      destruct (IH Q _ ok (honest_ext _ _ _ Hh He1 Hg1 eq_refl)) as (s' & a & ok' & H1 & H2 & H3 & H4 & H5 & H6);
        [exact Hok|exact HW|].
      exists s', a, ok'. split; [exact H1|]. split; [exact H2|]. split; [eapply ext_trans; [exact He1|exact H3]|]. auto.
    - apply (IH (p_metrics s) Q s ok Hh Hok). intros w Hw. apply HW. exact Hw.
    - exfalso. exact (HW _ (agrees_self s)).
    - exfalso. exact (HW _ (agrees_self s)).
  Qed.
End LogicSound.
