(** * Lemmas about the constraint-system model *)
From Verif Require Import CSSpec UtilProofs.
Local Open Scope F_scope.

Section LCProofs.
  Context {F : Field}.
  Add Field FFlc : (f_th F).
  Implicit Types (w : Var -> F) (a b lc : LC F).

  Lemma lc_val_app w a b : lc_val w (a ++ b) = lc_val w a + lc_val w b.
  Proof. induction a as [|[v c] a IH]; cbn; [ring|]. rewrite IH. ring. Qed.
  Lemma lc_val_neg_map w a : lc_val w (map (fun '(v, c) => (v, - c)) a) = - lc_val w a.
  Proof. induction a as [|[v c] a IH]; cbn; [ring|]. rewrite IH. ring. Qed.
  Lemma lc_val_add w a b : lc_val w (lc_add a b) = lc_val w a + lc_val w b.
  Proof. apply lc_val_app. Qed.
  Lemma lc_val_sub w a b : lc_val w (lc_sub a b) = lc_val w a - lc_val w b.
  Proof. unfold lc_sub. rewrite lc_val_app, lc_val_neg_map. ring. Qed.
  Lemma lc_val_neg w a : lc_val w (lc_neg a) = - lc_val w a.
  Proof. apply lc_val_neg_map. Qed.
  Lemma lc_val_mul w a s : lc_val w (lc_mul a s) = lc_val w a * s.
  Proof. unfold lc_mul. induction a as [|[v c] a IH]; cbn; [ring|]. cbn in IH. rewrite IH. ring. Qed.
  Lemma lc_val_var w v : lc_val w (lc_var v) = w v.
  Proof. cbn. ring. Qed.
  Lemma lc_val_const w c : w One = 1 -> lc_val w (lc_const c) = c.
  Proof. intros H. cbn. rewrite H. ring. Qed.
  Lemma lc_val_var_mul w v s : lc_val w (var_mul v s) = w v * s.
  Proof. cbn. ring. Qed.
  Lemma lc_val_zero w : lc_val w lc_zero = 0. Proof. reflexivity. Qed.
  Lemma lc_val_ext w w' lc : (forall v, In v (map fst lc) -> w v = w' v) -> lc_val w lc = lc_val w' lc.
  Proof.
    induction lc as [|[v c] lc IH]; intros H; [reflexivity|]. cbn.
    rewrite (H v) by (left; reflexivity). rewrite IH; [reflexivity|]. intros; apply H; right; assumption.
  Qed.

  Lemma p_eval_cons s v c lc :
    p_eval s ((v, c) :: lc) = do x <- p_var s v; do y <- p_eval s lc; Some (c * x + y).
  Proof. reflexivity. Qed.
  Lemma p_eval_total s lc : Forall (fun t => p_var s (fst t) <> None) lc ->
    p_eval s lc = Some (lc_val (p_asg s) lc).
  Proof.
    induction lc as [|[v c] lc IH]; intros H; [reflexivity|].
    inversion H as [|? ? Hv Hr]; subst. rewrite p_eval_cons, (IH Hr). cbn [fst lc_val] in *.
    unfold p_asg at 2. destruct (p_var s v); [reflexivity|congruence].
  Qed.
  Lemma p_eval_spec s lc x : p_eval s lc = Some x ->
    x = lc_val (p_asg s) lc /\ Forall (fun t => p_var s (fst t) <> None) lc.
  Proof.
    revert x; induction lc as [|[v c] lc IH]; intros x H.
    - cbn in H. injection H as <-. split; [reflexivity|constructor].
    - rewrite p_eval_cons in H. destruct (p_var s v) as [xv|] eqn:Ev; [|discriminate]. cbn [opt_bind] in H.
      destruct (p_eval s lc) as [y|] eqn:Ey; [|discriminate].
      cbn [opt_bind] in H. injection H as <-. destruct (IH y eq_refl) as [-> Hf]. split.
      + cbn [lc_val]. unfold p_asg at 2. rewrite Ev. reflexivity.
      + constructor; [cbn; congruence|assumption].
  Qed.
End LCProofs.

(** ** Prover invariants *)
Section Inv.
  Context {F : Field} {V : VSpace F}.
  Add Field FFinv : (f_th F).
  Variable E : TrEnv V.
  Context {gn : nat}.
  Implicit Types (s t : PState F).

  (** Issued variables stay issued and keep their value. *)
  Definition ext s s' : Prop :=
    forall v x, issued s v -> p_var s v = Some x -> issued s' v /\ p_var s' v = Some x.
  Lemma ext_refl s : ext s s. Proof. intros v x; auto. Qed.
  Lemma ext_trans s1 s2 s3 : ext s1 s2 -> ext s2 s3 -> ext s1 s3.
  Proof. intros H1 H2 v x Hi Hv. destruct (H1 v x Hi Hv). apply H2; assumption. Qed.

  Lemma nth_error_app_Some {A} (l : list A) r i x : nth_error l i = Some x -> nth_error (l ++ r) i = Some x.
  Proof. intros H. rewrite nth_error_app1; [assumption|]. apply nth_error_Some. congruence. Qed.

  Lemma p_var_wires_app s l r o d v x :
    p_var s v = Some x ->
    p_var (mkP (p_tr s) (p_cs s) (p_aL s ++ l) (p_aR s ++ r) (p_aO s ++ o) (p_v s) (p_vb s) (p_vec s) (p_def s) d) v = Some x.
  Proof. destruct v; cbn; auto using nth_error_app_Some. Qed.

  Lemma p_var_lt s v i : gates_from gn s -> p_var s v <> None -> v = MulR i \/ v = MulO i -> (i < length (p_aL s))%nat.
  Proof.
    intros (HR & HO & _) Hv [->| ->]; cbn in Hv; apply nth_error_Some in Hv; lia.
  Qed.

  Lemma gates_push s x y d : gates_from gn s ->
    (forall i, p_pend s = Some i -> d = Some i \/ d = None) ->
    (d = p_pend s \/ (d = Some (length (p_aL s)) /\ y = 0)) ->
    gates_from gn (mkP (p_tr s) (p_cs s) (p_aL s ++ [x]) (p_aR s ++ [y]) (p_aO s ++ [x * y]) (p_v s) (p_vb s) (p_vec s) (p_def s) d).
  Proof.
    intros (HR & HO & HG & HP) _ Hd. unfold gates_from. cbn. rewrite !app_length. cbn [length].
    split; [lia|]. split; [lia|]. split.
    - intros i. specialize (HG i). set (j := (gn + i)%nat) in *. clearbody j.
      destruct (Nat.lt_trichotomy j (length (p_aL s))) as [Hlt|[->|Hgt]].
      + rewrite !app_nth1 by lia. apply HG.
      + rewrite !app_nth2 by lia. rewrite HR, HO, Nat.sub_diag. reflexivity.
      + rewrite !nth_overflow by (rewrite app_length; cbn [length]; lia). ring.
    - intros i Hi. destruct Hd as [->|[-> ->]].
      + destruct (HP i Hi) as [H1 H2]. split; [lia|]. rewrite app_nth1 by lia. assumption.
      + injection Hi as <-. split; [lia|]. rewrite app_nth2 by lia. rewrite HR, Nat.sub_diag. reflexivity.
  Qed.

  Lemma gates_same_wires s s' : gates_from gn s -> p_aL s' = p_aL s -> p_aR s' = p_aR s -> p_aO s' = p_aO s ->
    (p_pend s' = p_pend s \/ p_pend s' = None) -> gates_from gn s'.
  Proof.
    intros (HR & HO & HG & HP) EL ER EO Hp. unfold gates_from. rewrite EL, ER, EO.
    repeat split; auto; destruct Hp as [Hp|Hp]; rewrite Hp in *; try discriminate; apply HP; assumption.
  Qed.

  Lemma ext_same s s' : (forall v, p_var s' v = p_var s v) -> (p_pend s' = p_pend s \/ p_pend s' = None) -> ext s s'.
  Proof.
    intros Hv Hp v x [Hi1 Hi2] Hx. split; [|rewrite Hv; assumption]. split; [rewrite Hv; assumption|].
    intros i Hi. apply Hi2. destruct Hp; congruence.
  Qed.

  Lemma p_allocate_inv s a s' r : gates_from gn s -> p_allocate s a = Some (s', r) -> gates_from gn s' /\ ext s s'.
  Proof.
    intros Hinv H. unfold p_allocate in H. destruct a as [x|].
    2:{ injection H as <- <-. split; [assumption|apply ext_refl]. }
    destruct (p_pend s) as [i|] eqn:Hp.
    - destruct (nth_error (p_aR s) i) as [r0|] eqn:Er; [|discriminate].
      destruct (nth_error (p_aL s) i) as [l0|] eqn:El; [|discriminate].
      destruct (nth_error (p_aO s) i) as [o0|] eqn:Eo; [|discriminate].
      injection H as <- <-. destruct Hinv as (HR & HO & HG & HP).
      assert (Hil : (i < length (p_aL s))%nat) by (apply nth_error_Some; congruence).
      split.
      + unfold gates_from. cbn. rewrite !upd_length. split; [assumption|]. split; [assumption|]. split.
        * intros j0. specialize (HG j0). set (j := (gn + j0)%nat) in *. clearbody j. destruct (Nat.eq_dec i j) as [<-|Hij].
          -- rewrite !nth_upd_eq by lia. f_equal. symmetry. apply nth_error_nth. assumption.
          -- rewrite !nth_upd_neq by assumption. apply HG.
        * discriminate.
      + intros v y [Hv1 Hv2] Hy. destruct (Hv2 i Hp) as [Hn1 Hn2].
        assert (Hpv : p_var (p_set_wires (p_set_pend s None) (p_aL s)
                   (upd (p_aR s) i (fun _ => x)) (upd (p_aO s) i (fun _ => l0 * x))) v = Some y).
        { destruct v as [| |j|j|j|]; cbn in *; auto.
          - destruct (Nat.eq_dec i j) as [->|]; [congruence|]. rewrite nth_error_upd_neq; assumption.
          - destruct (Nat.eq_dec i j) as [->|]; [congruence|]. rewrite nth_error_upd_neq; assumption. }
        split; [|assumption]. split; [congruence|]. cbn. discriminate.
    - injection H as <- <-. split.
      + unfold p_set_wires, p_set_pend; cbn.
        replace (p_aO s ++ [0]) with (p_aO s ++ [x * 0]) by (do 2 f_equal; ring).
        apply gates_push; [assumption|intros i Hi; congruence|right; auto].
      + intros v y [Hv1 Hv2] Hy.
        assert (Hpv := p_var_wires_app s [x] [0] [0] (Some (length (p_aL s))) v y Hy).
        split; [|exact Hpv]. split; [unfold p_set_wires, p_set_pend; cbn; rewrite Hpv; discriminate|].
        cbn. intros i Hi. injection Hi as <-. split; intros ->.
        * pose proof (p_var_lt s _ (length (p_aL s)) Hinv Hv1 (or_introl eq_refl)). lia.
        * pose proof (p_var_lt s _ (length (p_aL s)) Hinv Hv1 (or_intror eq_refl)). lia.
  Qed.

  Lemma ext_push s x y o : ext s (p_set_wires s (p_aL s ++ x) (p_aR s ++ y) (p_aO s ++ o)).
  Proof.
    intros v z [Hv1 Hv2] Hz.
    assert (Hpv := p_var_wires_app s x y o (p_pend s) v z Hz).
    split; [|exact Hpv]. split; [unfold p_set_wires; rewrite Hpv; discriminate|exact Hv2].
  Qed.

  Lemma p_allocate_multiplier_inv s a s' r : gates_from gn s -> p_allocate_multiplier s a = (s', r) -> gates_from gn s' /\ ext s s'.
  Proof.
    intros Hinv H. unfold p_allocate_multiplier in H. destruct a as [[l r0]|]; injection H as <- <-.
    - split; [|apply ext_push]. unfold p_set_wires. apply gates_push; [assumption|auto|left; reflexivity].
    - split; [assumption|apply ext_refl].
  Qed.

  Lemma p_constrain_inv s lc : gates_from gn s -> gates_from gn (p_constrain s lc) /\ ext s (p_constrain s lc).
  Proof.
    intros H. split; [apply (gates_same_wires s); auto|].
    apply ext_same; [intros []; reflexivity|left; reflexivity].
  Qed.

  Lemma p_multiply_inv s l r s' v : gates_from gn s -> p_multiply s l r = Some (s', v) -> gates_from gn s' /\ ext s s'.
  Proof.
    intros Hinv H. unfold p_multiply in H.
    destruct (p_eval s l) as [x|]; [|discriminate]. destruct (p_eval s r) as [y|]; [|discriminate].
    cbn [opt_bind] in H. apply Some_inj in H.
    injection H as <- _.
    set (s1 := p_set_wires s (p_aL s ++ [x]) (p_aR s ++ [y]) (p_aO s ++ [x * y])).
    assert (H1 : gates_from gn s1) by (apply gates_push; [assumption|auto|left; reflexivity]).
    destruct (p_constrain_inv s1 (l ++ [(MulL (length (p_aL s)), - (1))]) H1) as [H2 E2].
    destruct (p_constrain_inv _ (r ++ [(MulR (length (p_aR s)), - (1))]) H2) as [H3 E3].
    split; [exact H3|]. eapply ext_trans; [apply ext_push|]. eapply ext_trans; [exact E2|exact E3].
  Qed.

  Lemma set_tr_inv s tr : gates_from gn s -> gates_from gn (p_set_tr s tr) /\ ext s (p_set_tr s tr).
  Proof.
    intros H. split; [apply (gates_same_wires s); auto|].
    apply ext_same; [intros []; reflexivity|left; reflexivity].
  Qed.
  Lemma set_def_inv s d : gates_from gn s -> gates_from gn (p_set_def s d) /\ ext s (p_set_def s d).
  Proof.
    intros H. split; [apply (gates_same_wires s); auto|].
    apply ext_same; [intros []; reflexivity|left; reflexivity].
  Qed.
  Lemma set_pend_inv s : gates_from gn s -> gates_from gn (p_set_pend s None) /\ ext s (p_set_pend s None).
  Proof.
    intros H. split; [apply (gates_same_wires s); auto|].
    apply ext_same; [intros []; reflexivity|right; reflexivity].
  Qed.

  Lemma prun_inv {A} (p : Prog F A) : forall s s' a, gates_from gn s -> prun E p s = Some (s', a) -> gates_from gn s' /\ ext s s'.
  Proof.
    assert (Hstep : forall s1 s2 s3, gates_from gn s2 /\ ext s1 s2 -> (gates_from gn s2 -> gates_from gn s3 /\ ext s2 s3) -> gates_from gn s3 /\ ext s1 s3).
    { intros s1 s2 s3 [H1 H2] H3. destruct (H3 H1) as [H4 H5]. split; [assumption|]. eapply ext_trans; eassumption. }
    induction p as [A a0|A|A l r k IH|A x k IH|A x k IH|A c k IH|A lb m k IH|A k IH|A lb k IH|A cb _ k IH]; intros s s' a Hinv H; cbn [prun] in H.
    - injection H as <- <-. split; [assumption|apply ext_refl].
    - discriminate.
    - destruct (p_multiply s l r) as [[s1 v]|] eqn:E1; [|discriminate].
      apply (Hstep s s1 s'); [eapply p_multiply_inv; eassumption|]. intros. eapply IH; eassumption.
    - destruct (p_allocate s x) as [[s1 v]|] eqn:E1; [|discriminate].
      apply (Hstep s s1 s'); [eapply p_allocate_inv; eassumption|]. intros. eapply IH; eassumption.
    - destruct (p_allocate_multiplier s x) as [s1 v] eqn:E1.
      apply (Hstep s s1 s'); [eapply p_allocate_multiplier_inv; eassumption|]. intros. eapply IH; eassumption.
    - eapply Hstep; [apply (p_constrain_inv s c); assumption|]. intros. eapply IH; eassumption.
    - eapply Hstep; [eapply set_tr_inv; assumption|]. intros. eapply IH; eassumption.
    - eapply IH; eassumption.
    - destruct (challenge_scalar E (p_tr s) lb) as [[c tr]|]; [|discriminate].
      eapply Hstep; [eapply set_tr_inv; assumption|]. intros. eapply IH; eassumption.
    - eapply Hstep; [eapply set_def_inv; assumption|]. intros. eapply IH; eassumption.
  Qed.

  Lemma p_run_all_inv cbs : forall s s', gates_from gn s -> p_run_all E cbs s = Some (Ok s') -> gates_from gn s' /\ ext s s'.
  Proof.
    induction cbs as [|cb cbs IH]; intros s s' Hinv H; cbn [p_run_all] in H.
    - injection H as <-. split; [assumption|apply ext_refl].
    - destruct (prun E cb s) as [[s1 [u|e]]|] eqn:E1; try discriminate.
      destruct (prun_inv cb s s1 (Ok u) Hinv E1) as [H1 H2].
      destruct (IH s1 s' H1 H) as [H3 H4]. split; [assumption|eapply ext_trans; eassumption].
  Qed.

  Lemma p_create_randomized_inv s s' : gates_from gn s -> p_create_randomized E s = Some (Ok s') -> gates_from gn s' /\ ext s s'.
  Proof.
    intros Hinv H. unfold p_create_randomized in H.
    destruct (set_pend_inv s Hinv) as [H1 H2].
    destruct (p_def (p_set_pend s None)) as [|cb cbs] eqn:Ed.
    - injection H as <-. destruct (set_tr_inv (p_set_pend s None) (r1cs_1phase_domain_sep (p_tr (p_set_pend s None))) H1) as [H3 H4].
      split; [exact H3|]. eapply ext_trans; eassumption.
    - destruct (set_tr_inv (p_set_pend s None) (r1cs_2phase_domain_sep (p_tr (p_set_pend s None))) H1) as [H3 H4].
      destruct (set_def_inv _ [] H3) as [H5 H6].
      destruct (p_run_all_inv _ _ _ H5 H) as [H7 H8]. split; [assumption|].
      eapply ext_trans; [exact H2|]. eapply ext_trans; [exact H4|]. eapply ext_trans; [exact H6|exact H8].
  Qed.

  Lemma p_commit_inv pc s v vb : gates_from gn s -> gates_from gn (fst (p_commit E pc s v vb)) /\ ext s (fst (p_commit E pc s v vb)).
  Proof.
    intros H. split; [apply (gates_same_wires s); [assumption|reflexivity|reflexivity|reflexivity|left; reflexivity]|].
    intros u x [H1 H2] Hx. assert (Hu : p_var (fst (p_commit E pc s v vb)) u = Some x).
    { destruct u; cbn in *; auto using nth_error_app_Some. }
    split; [|assumption]. split; [congruence|exact H2].
  Qed.
  Lemma p_commit_vec_inv pc g s v vb s' r : gates_from gn s -> p_commit_vec E pc g s v vb = Some (s', r) -> gates_from gn s' /\ ext s s'.
  Proof.
    intros H Hc. unfold p_commit_vec in Hc. destruct (share_G g 0 (length v)) as [G|]; [|discriminate].
    cbn [opt_bind] in Hc. unfold guard in Hc. destruct (Nat.eqb _ _); [|discriminate].
    apply Some_inj in Hc. injection Hc as <- _. split; [apply (gates_same_wires s); [assumption|reflexivity|reflexivity|reflexivity|left; reflexivity]|].
    intros u x [H1 H2] Hx. match goal with |- issued ?s1 u /\ _ => assert (Hu : p_var s1 u = Some x) end.
    { destruct u as [j i| | | | |]; cbn in *; auto.
      destruct (nth_error (p_vec s) j) as [[b l]|] eqn:Ej; [|discriminate].
      rewrite (nth_error_app_Some _ _ _ _ Ej). assumption. }
    split; [|assumption]. split; [congruence|exact H2].
  Qed.

  Lemma p_call_inv pc g s s' : gates_from gn s -> p_call E pc g s s' -> gates_from gn s' /\ ext s s'.
  Proof.
    intros Hinv H. destruct H as [A p s s' a H|s v vb|s v vb s' r H|s s' H].
    - eapply prun_inv; eassumption.
    - apply p_commit_inv; assumption.
    - eapply p_commit_vec_inv; eassumption.
    - apply p_create_randomized_inv; assumption.
  Qed.
  Lemma p_reachable_inv pc g s s' : gates_from gn s -> p_reachable E pc g s s' -> gates_from gn s' /\ ext s s'.
  Proof.
    intros Hinv H. induction H as [s|s s' s'' H IH Hc]; [split; [assumption|apply ext_refl]|].
    destruct (IH Hinv) as [H1 H2]. destruct (p_call_inv pc g s' s'' H1 Hc) as [H3 H4].
    split; [assumption|eapply ext_trans; eassumption].
  Qed.
  Lemma p_new_inv tr : gates_from (F:=F) gn (p_new tr).
  Proof. repeat split; cbn; try discriminate. intros i. destruct (gn + i)%nat; ring. Qed.

  (** What each call returns. *)
  Lemma p_multiply_returns s l r s' lv rv ov : gates_from gn s -> p_multiply s l r = Some (s', (lv, rv, ov)) ->
    p_eval s l <> None /\ p_eval s r <> None /\
    (issued s' lv /\ p_var s' lv = p_eval s l) /\ (issued s' rv /\ p_var s' rv = p_eval s r) /\
    (issued s' ov /\ exists x y, p_eval s l = Some x /\ p_eval s r = Some y /\ p_var s' ov = Some (x * y)).
  Proof.
    intros (HR & HO & HG & HP) H. unfold p_multiply in H.
    destruct (p_eval s l) as [x|]; [|discriminate]. destruct (p_eval s r) as [y|]; [|discriminate].
    cbn [opt_bind] in H. injection H as <- <- <- <-.
    assert (Hn : forall i, p_pend s = Some i -> (i < length (p_aL s))%nat) by (intros; apply HP; assumption).
    split; [discriminate|]. split; [discriminate|].
    unfold issued; cbn. rewrite !nth_error_app2, !Nat.sub_diag by lia. cbn.
    repeat split; try discriminate; try (exists x, y; auto);
      match goal with H : p_pend s = Some _ |- _ => apply Hn in H end;
      intros Heq; injection Heq as Heq; lia.
  Qed.
  Lemma p_allocate_returns s x s' r : gates_from gn s -> p_allocate s (Some x) = Some (s', r) ->
    exists v, r = Ok v /\ issued s' v /\ p_var s' v = Some x.
  Proof.
    intros (HR & HO & HG & HP) H. unfold p_allocate in H. destruct (p_pend s) as [i|] eqn:Hp.
    - destruct (nth_error (p_aR s) i) as [r0|] eqn:Er; [|discriminate].
      destruct (nth_error (p_aL s) i) as [l0|] eqn:El; [|discriminate].
      destruct (nth_error (p_aO s) i) as [o0|] eqn:Eo; [|discriminate].
      injection H as <- <-. exists (MulR i). split; [reflexivity|].
      unfold issued; cbn. rewrite nth_error_upd_eq, Er. cbn. repeat split; discriminate.
    - injection H as <- <-. exists (MulL (length (p_aL s))). split; [reflexivity|].
      unfold issued; cbn. rewrite nth_error_app2, Nat.sub_diag by lia. cbn. repeat split; discriminate.
  Qed.
  Lemma p_allocate_total s x : gates_from gn s -> exists s' r, p_allocate s x = Some (s', r).
  Proof.
    intros (HR & HO & HG & HP). unfold p_allocate. destruct x as [x|]; [|eauto].
    destruct (p_pend s) as [i|] eqn:Hp; [|eauto].
    destruct (HP i eq_refl) as [Hi _].
    destruct (nth_error (p_aR s) i) as [r0|] eqn:Er; [|apply nth_error_None in Er; lia].
    destruct (nth_error (p_aL s) i) as [l0|] eqn:El; [|apply nth_error_None in El; lia].
    destruct (nth_error (p_aO s) i) as [o0|] eqn:Eo; [|apply nth_error_None in Eo; lia].
    eauto.
  Qed.
  Lemma p_allocate_multiplier_returns s x y s' r : gates_from gn s -> p_allocate_multiplier s (Some (x, y)) = (s', r) ->
    exists lv rv ov, r = Ok (lv, rv, ov) /\ issued s' lv /\ issued s' rv /\ issued s' ov /\
      p_var s' lv = Some x /\ p_var s' rv = Some y /\ p_var s' ov = Some (x * y).
  Proof.
    intros (HR & HO & HG & HP) H. unfold p_allocate_multiplier in H. injection H as <- <-.
    assert (Hn : forall i, p_pend s = Some i -> (i < length (p_aL s))%nat) by (intros; apply HP; assumption).
    do 3 eexists. split; [reflexivity|].
    unfold issued; cbn. rewrite !nth_error_app2, !Nat.sub_diag by lia. cbn.
    repeat split; try discriminate;
      match goal with H : p_pend s = Some _ |- _ => apply Hn in H end;
      intros Heq; injection Heq as Heq; lia.
  Qed.
  Lemma p_commit_returns pc s v vb s' c u : p_commit E pc s v vb = (s', (c, u)) ->
    issued s' u /\ p_var s' u = Some v.
  Proof.
    intros H. unfold p_commit in H. injection H as <- <- <-. unfold issued; cbn.
    rewrite nth_error_app2, Nat.sub_diag by lia. cbn. repeat split; discriminate.
  Qed.
  Lemma p_commit_vec_returns pc g s v vb s' c us : p_commit_vec E pc g s v vb = Some (s', (c, us)) ->
    length us = length v /\
    forall i, (i < length v)%nat -> issued s' (nth i us One) /\ p_var s' (nth i us One) = nth_error v i.
  Proof.
    intros Hc. unfold p_commit_vec in Hc. destruct (share_G g 0 (length v)) as [G|]; [|discriminate].
    cbn [opt_bind] in Hc. unfold guard in Hc. destruct (Nat.eqb _ _); [|discriminate].
    apply Some_inj in Hc. injection Hc as <- <- <-.
    rewrite map_length, seq_length. split; [reflexivity|]. intros i Hi.
    rewrite nth_map_seq by assumption. unfold issued; cbn.
    rewrite nth_error_app2, Nat.sub_diag by lia. cbn.
    repeat split; try discriminate. apply nth_error_Some. assumption.
  Qed.
End Inv.
