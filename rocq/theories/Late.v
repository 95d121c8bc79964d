(** * Statements chosen after the challenges

    The prover never reads the constants of its constraints, and they are not part of the
    transcript.  What follows from that: [PropsAcc.v] (C76). *)
From Verif Require Import R1CSSpec UtilProofs CSProofs Lockstep FlatProofs CSMore R1CSProofs R1CSMain Gadgets GadgetProofs SoundSpec SoundCount CSLogic.
Local Open Scope F_scope.

Section Late.
  Context {F : Field} {V : VSpace F}.
  Add Field FFlate : (f_th F).

  (** A linear combination without its constants (specification, no code modelled). *)
  Definition weights (lc : LC F) : LC F := filter (fun t => match fst t with One => false | _ => true end) lc.
  (** Two lists of constraints that differ in constants only (specification, no code
      modelled). *)
  Definition same_weights (cs cs' : list (LC F)) : Prop := map weights cs = map weights cs'.
  (** A verifier and a prover with other constraints (specification, no code modelled). *)
  Definition v_restated (t : VState V) (cs : list (LC F)) : VState V := mkV (v_tr t) cs (v_vec t) (v_num t) (v_V t) (v_def t) (v_pend t).
  (* vocabulary of specifications and proofs, no code modelled *)
  Definition p_restated (s : PState F) (cs : list (LC F)) : PState F := mkP (p_tr s) cs (p_aL s) (p_aR s) (p_aO s) (p_v s) (p_vb s) (p_vec s) (p_def s) (p_pend s).

  Lemma flat_terms_weights ez (lc : LC F) : forall fl, flat_terms false ez lc fl = flat_terms false ez (weights lc) fl.
  Proof.
    induction lc as [|[v c] lc IH]; intros fl; cbn [flat_terms weights filter fst]; [reflexivity|].
    destruct v; cbn [flat_terms flat_term opt_bind]; try apply IH; (match goal with |- opt_bind ?o _ = opt_bind ?o _ => destruct o; cbn [opt_bind]; [apply IH|reflexivity] end).
  Qed.
  Lemma flat_loop_weights z : forall cs cs' ez fl, same_weights cs cs' -> flat_loop false z ez cs fl = flat_loop false z ez cs' fl.
  Proof.
    induction cs as [|c cs IH]; intros [|c' cs'] ez fl H; try discriminate H; [reflexivity|]. unfold same_weights in H. cbn [map] in H. injection H as H1 H2. cbn [flat_loop].
    rewrite (flat_terms_weights ez c), (flat_terms_weights ez c'), H1. destruct (flat_terms false ez _ fl); cbn [opt_bind]; [apply IH, H2|reflexivity].
  Qed.
  Lemma prove_with (E : TrEnv V) dbg rnd pc g s cs : p_def s = [] -> same_weights (p_cs s) cs -> r1cs_prove E dbg rnd pc g (p_restated s cs) = r1cs_prove E dbg rnd pc g s.
  Proof.
    intros Hd Hc. unfold r1cs_prove. rewrite (p_pad_eq (p_restated s cs)), (p_pad_eq s). change (padded (p_restated s cs)) with (p_restated (padded s) cs).
    assert (Hd' : p_def (padded s) = []) by exact Hd. assert (Hc' : same_weights (p_cs (padded s)) cs) by exact Hc. revert Hd' Hc'. generalize (padded s) as u. clear. intros [tr cs0 aL aR aO v vb vec def pend] Hd Hc. cbn in Hd, Hc. subst def.
    cbv beta iota zeta delta [p_restated p_vec p_v p_tr p_aL p_aR p_aO p_vb p_cs p_def p_pend p_set_tr p_set_pend p_create_randomized p_size p_flatten res_bind].
    set (n := fold_left _ vec (length aL)). 
    repeat match goal with
    | |- (if ?b then _ else _) = (if ?b then _ else _) => destruct b; [reflexivity|]
    | |- opt_bind ?a _ = opt_bind ?a _ => destruct a as [?|]; cbn [opt_bind]; [|reflexivity]
    | |- guard ?b _ = guard ?b _ => destruct b; cbn [guard]; [|reflexivity]
    | |- (let '(_, _) := ?p in _) = (let '(_, _) := ?p in _) => destruct p
    end.
    rewrite (flat_loop_weights _ cs0 cs _ _ Hc). reflexivity.
  Qed.

  Lemma v_size_with t cs : v_size (v_restated t cs) = v_size t.
  Proof. reflexivity. Qed.
  Lemma v_pad_with k : forall t cs, v_pad k (v_restated t cs) = v_restated (v_pad k t) cs.
  Proof.
    induction k as [|k IH]; intros t cs; cbn [v_pad]; rewrite v_size_with; change (v_num (v_restated t cs)) with (v_num t); destruct (v_size t <=? v_num t)%nat; try reflexivity. apply (IH (fst (v_allocate_multiplier t None))).
  Qed.
  Lemma challenges_with (E : TrEnv V) pf t cs t2 y z x : v_def t = [] -> r1cs_challenges E pf t = Some (t2, y, z, x) -> r1cs_challenges E pf (v_restated t cs) = Some (v_restated t2 cs, y, z, x).
  Proof.
    intros Hd. unfold r1cs_challenges. rewrite v_size_with, v_pad_with.
    assert (Hd' : v_def (v_pad (v_size t) t) = []) by (rewrite (v_pad_spec (v_size t - v_num t) t eq_refl) by lia; exact Hd). revert Hd'. generalize (v_pad (v_size t) t) as u. clear. intros [tr cs0 vec num VV def pend] Hd. cbn in Hd. subst def.
    cbv beta iota zeta delta [v_restated v_create_randomized v_set_num v_set_tr v_tr v_cs v_vec v_num v_V v_def v_pend].
    repeat match goal with |- opt_bind ?a _ = _ -> _ => destruct a as [?|]; cbn [opt_bind]; [|discriminate] | |- (let '(_, _) := ?p in _) = _ -> _ => destruct p end.
    intros H. apply Some_inj in H. injection H as <- <- <- <-. reflexivity.
  Qed.
  Lemma late_exact (E : TrEnv V) pc g tr s t dbg rnd pf trf : session E pc g tr s t -> p_def s = [] -> gens_wf g -> (gens_capacity g < 2 ^ 32)%nat -> pcB pc <> v0 ->
    r1cs_prove E dbg rnd pc g s = Some (Ok (pf, trf)) -> Forall (fun P => P <> v0) (validated_points (op_degree_of (length (p_vec s))) pf) ->
    exists t2 y z x, r1cs_challenges E pf t = Some (t2, y, z, x) /\
      forall cs, same_weights (p_cs s) cs -> r1cs_challenges E pf (v_restated t cs) = Some (v_restated t2 cs, y, z, x) /\
        forall dbg' rr, r1cs_verify E dbg' rr pf pc g (v_restated t cs) = Some (Ok tt) <-> rr = 0 \/ x = 0 \/ batched_constraints (p_asg s) z cs = 0.
  Proof.
    intros Hs Hd Hw Hc HB Hp Hnz. destruct (session_agree E pc g tr s t Hs) as [Hi Ha].
    destruct (verify_exact E pc g dbg rnd s t pf trf Ha Hi Hw Hc HB Hp Hnz) as (_ & t2 & _ & y & z & x & _ & Hch & _).
    assert (Hdt : v_def t = []). { pose proof (ag_def _ _ _ _ Ha) as H. rewrite Hd in H. inversion H. reflexivity. }
    exists t2, y, z, x. split; [exact Hch|]. intros cs Hcs. pose proof (challenges_with E pf t cs _ _ _ _ Hdt Hch) as Hch'. split; [exact Hch'|].
    assert (Ha' : agree pc g (p_restated s cs) (v_restated t cs)) by (destruct Ha; constructor; try assumption; reflexivity).
    assert (Hi' : gates_inv (p_restated s cs)) by exact Hi.
    rewrite <- (prove_with E dbg rnd pc g s cs Hd Hcs) in Hp.
    destruct (verify_exact E pc g dbg rnd (p_restated s cs) (v_restated t cs) pf trf Ha' Hi' Hw Hc HB Hp Hnz) as (s2 & t2' & tr1 & y' & z' & x' & Hr & Hch2 & Hcs2 & Hv).
    rewrite Hch' in Hch2. apply Some_inj in Hch2. injection Hch2 as <- <- <- <-. intros dbg' rr. rewrite (proj1 (Hv dbg' rr)).
    assert (Hb : batched_constraints (p_asg s2) z (p_cs s2) = batched_constraints (p_asg s) z cs); [|rewrite Hb; reflexivity].
    rewrite (one_phase E (p_restated s cs) tr1 Hd) in Hr. apply Some_inj in Hr. assert (Hs2 : p_set_tr (p_set_pend (padded (p_restated s cs)) None) (r1cs_1phase_domain_sep tr1) = s2) by congruence. subst s2.
    change (p_cs _) with cs. unfold batched_constraints. apply fsum_ext. intros q Hq. f_equal. apply lc_val_ext. intros v. exact (padded_asg s v).
  Qed.

  (** ** The constraints of [select] with a public element *)
  (** The constraints [select_loop] adds, written out (vocabulary of the proof, no code
      modelled). *)
  Fixpoint loop_cs (e : F) (prod : LC F) (vars : list Var) (n : nat) : list (LC F) :=
    match vars with
    | [] => [prod]
    | v :: r => (prod ++ [(MulL n, - (1))]) :: (lc_sub (lc_var v) (lc_const e) ++ [(MulR n, - (1))]) :: loop_cs e (lc_var (MulO n)) r (S n)
    end.
  (** where the element occurs among them (no code modelled) *)
  Fixpoint loop_marks (m : F) (k : nat) : list F := match k with O => [m] | S k => m :: 1 :: loop_marks 0 k end.

  Lemma loop_vrun (E : TrEnv V) e vars : forall prod t, vrun E (select_loop (lc_const e) prod (map lc_var vars)) t =
    Some (mkV (v_tr t) (v_cs t ++ loop_cs e prod vars (v_num t)) (v_vec t) (length vars + v_num t) (v_V t) (v_def t) (v_pend t), tt).
  Proof.
    induction vars as [|v vars IH]; intros prod t; cbn [select_loop map vrun loop_cs]; [reflexivity|].
    unfold v_multiply. rewrite IH. cbn. rewrite <- !app_assoc. cbn [app]. do 3 f_equal. lia.
  Qed.
  Lemma weights_app (a b : LC F) : weights (a ++ b) = weights a ++ weights b.
  Proof. apply filter_app. Qed.
  Lemma loop_weights e e' vars : forall prod prod' n, weights prod = weights prod' -> same_weights (loop_cs e prod vars n) (loop_cs e' prod' vars n).
  Proof.
    unfold same_weights. induction vars as [|v vars IH]; intros prod prod' n H; cbn [loop_cs map]; [congruence|].
    rewrite !weights_app, H. f_equal. f_equal. apply IH. reflexivity.
  Qed.
  Lemma loop_length e vars : forall prod n, length (loop_cs e prod vars n) = (2 * length vars + 1)%nat.
  Proof. induction vars as [|v vars IH]; intros prod n; cbn [loop_cs length]; [reflexivity|]. rewrite IH. lia. Qed.
  Lemma marks_length k : forall m, length (loop_marks m k) = (2 * k + 1)%nat.
  Proof. induction k as [|k IH]; intros m; cbn [loop_marks length]; [reflexivity|]. rewrite IH. lia. Qed.
  Lemma loop_values (w : Var -> F) e e0 vars z : w One = 1 -> forall prod prod0 m n, lc_val w prod = lc_val w prod0 + (e0 - e) * m ->
    peval (map (lc_val w) (loop_cs e prod vars n)) z = peval (map (lc_val w) (loop_cs e0 prod0 vars n)) z + (e0 - e) * peval (loop_marks m (length vars)) z.
  Proof.
    intros H1. induction vars as [|v vars IH]; intros prod prod0 m n Hp; cbn [loop_cs map peval loop_marks length]; [rewrite Hp; ring|].
    rewrite !lc_val_app, !lc_val_sub, !lc_val_const, Hp by exact H1. rewrite (IH (lc_var (MulO n)) (lc_var (MulO n)) 0 (S n)) by ring. ring.
  Qed.

  (** ** The prover's side: [select] of anything builds a circuit whose last constraint is
      the product *)
  (** [select_loop] without its last constraint (no code modelled) *)
  Fixpoint sel_prog (x prod : LC F) (xs : list (LC F)) : Prog F (LC F) :=
    match xs with [] => PRet prod | xi :: r => PMul prod (lc_sub xi x) (fun '(_, _, o) => sel_prog x (lc_var o) r) end.
  Lemma sel_prog_loop (E : TrEnv V) (x : LC F) xs : forall prod s, prun E (select_loop x prod xs) s = match prun E (sel_prog x prod xs) s with Some (s', p) => Some (p_constrain s' p, tt) | None => None end.
  Proof.
    induction xs as [|xi xs IH]; intros prod s; cbn [select_loop sel_prog prun]; [reflexivity|]. destruct (p_multiply s prod (lc_sub xi x)) as [[s1 [[lv rv] ov]]|]; [apply IH|reflexivity].
  Qed.
  (** The product of the differences to [e] (specification, no code modelled). *)
  Definition differences (e : F) (xs : list F) : F := fold_right (fun x a => (x - e) * a) 1 xs.
  Lemma differences_nonzero (e : F) xs : ~ In e xs -> differences e xs <> 0.
  Proof.
    induction xs as [|x xs IH]; cbn [differences fold_right]; intros H; [apply f1_neq_0|]. intros Hz. apply fmul_eq_0 in Hz as [Hz|Hz].
    - apply (proj1 (fsub_0_iff _ _)) in Hz. apply H. left. exact Hz.
    - apply IH in Hz; [exact Hz|]. intros Hi. apply H. right. exact Hi.
  Qed.
  Lemma sel_prog_spec (w : Var -> F) (e : F) : w One = 1 -> forall vars (ok : Var -> Prop) prod, ok One -> lc_ok ok prod -> Forall ok vars ->
    wpc w ok (sel_prog (lc_const e) prod (map lc_var vars)) (fun ok' p => lc_ok ok' p /\ lc_val w p = lc_val w prod * differences e (map w vars)).
  Proof.
    intros H1. induction vars as [|v vars IH]; intros ok prod Ho Hp Hv; cbn [sel_prog map wpc differences fold_right].
    - split; [exact Hp|]. cbn. ring.
    - apply Forall_cons_iff in Hv as [Hv Hvs]. split; [exact Hp|]. split; [apply lc_ok_sub_lc; [apply lc_ok_var; exact Hv|apply lc_ok_const; exact Ho]|].
      intros lv rv ov Hl Hr Hov. assert (Hs : ok_sub ok (ok_add (ok_add (ok_add ok lv) rv) ov)) by (do 3 apply ok_sub_add; apply ok_sub_refl).
      eapply wpc_mono; [|apply IH].
      + intros ok' p [Hp' Hval]. split; [exact Hp'|]. rewrite Hval, lc_val_var, Hov. lcv. rewrite lc_val_const by exact H1. unfold differences. ring.
      + apply Hs, Ho.
      + apply lc_ok_var, ok_add_in.
      + eapply Forall_impl; [|exact Hvs]. exact Hs.
  Qed.
  (** The honest prover's code, run with any element. *)
  Lemma select_any (E : TrEnv V) (e : F) vars s : honest s -> vars <> [] -> Forall (issued s) vars ->
    exists s1 p, prun E (select (lc_const e) (map lc_var vars)) s = Some (p_constrain s1 p, tt) /\ honest s1 /\ keeps s s1 /\ frame s s1 /\ lc_ok (issued s1) p /\
      lc_val (p_asg s1) p = differences e (map (p_asg s) vars).
  Proof.
    intros Hh Hne Hv. destruct vars as [|v vars]; [congruence|]. clear Hne. apply Forall_cons_iff in Hv as [Hv Hvs]. cbn [map select]. rewrite sel_prog_loop.
    destruct (wpc_sound E (n := 0) (sel_prog (lc_const e) (lc_sub (lc_var v) (lc_const e)) (map lc_var vars)) (fun w ok' p => lc_ok ok' p /\ lc_val w p = lc_val w (lc_sub (lc_var v) (lc_const e)) * differences e (map w vars)) s (issued s) Hh (fun _ H => H)) as (s1 & p & ok' & Hr & Hh1 & He & Hf & Hok & HQ).
    { intros w Hw. apply sel_prog_spec; [eapply agrees_one; exact Hw|apply issued_one|apply lc_ok_sub_lc; [apply lc_ok_var; exact Hv|apply lc_ok_const, issued_one]|exact Hvs]. }
    rewrite Hr. exists s1, p. split; [reflexivity|]. split; [exact Hh1|]. pose proof (ext_keeps _ _ He) as Hk. split; [exact Hk|]. split; [exact Hf|].
    destruct (HQ _ (agrees_self s1)) as [Hp Hval]. split; [eapply lc_ok_sub; [exact Hok|exact Hp]|]. rewrite Hval. lcv. rewrite lc_val_const by reflexivity. rewrite (proj2 (Hk v Hv)). cbn [differences fold_right]. f_equal.
    assert (Hm : map (p_asg s1) vars = map (p_asg s) vars); [|rewrite Hm; reflexivity]. apply map_ext_in. intros u Hu. rewrite Forall_forall in Hvs. exact (proj2 (Hk u (Hvs u Hu))).
  Qed.

  (** ** The element for which a proof of anything is accepted *)
  Lemma peval_zero (l : list F) z : Forall (fun c => c = 0) l -> peval l z = 0.
  Proof. induction 1 as [|c l Hc _ IH]; cbn [peval]; [reflexivity|]. rewrite Hc, IH. ring. Qed.
  (** [marks k] at [z]: the weight with which the element enters the batched constraints
      (specification, no code modelled). *)
  Definition marks (k : nat) : list F := loop_marks 1 (k - 1).
  Lemma late_select (E : TrEnv V) pc g tr s (t : VState V) vars e0 dbg rnd pf trf s' :
    session E pc g tr s t -> honest s -> p_def s = [] -> vars <> [] -> Forall (issued s) vars -> gens_wf g -> (gens_capacity g < 2 ^ 32)%nat -> pcB pc <> v0 ->
    prun E (select (lc_const e0) (map lc_var vars)) s = Some (s', tt) ->
    r1cs_prove E dbg rnd pc g s' = Some (Ok (pf, trf)) -> Forall (fun P => P <> v0) (validated_points (op_degree_of (length (p_vec s'))) pf) ->
    exists y z x, forall e, exists te te', vrun E (select (lc_const e) (map lc_var vars)) t = Some (te, tt) /\ r1cs_challenges E pf te = Some (te', y, z, x) /\
      forall dbg' rr, r1cs_verify E dbg' rr pf pc g te = Some (Ok tt) <->
        rr = 0 \/ x = 0 \/ z = 0 \/ (e - e0) * peval (marks (length vars)) z = differences e0 (map (p_asg s) vars) * fpow z (2 * (length vars - 1)).
  Proof.
    intros Hs Hh Hd Hne Hv Hw Hc HB Hr Hp Hnz. destruct (select_any E e0 vars s Hh Hne Hv) as (s1 & p & Hr' & Hh1 & Hk & Hf & Hop & Hval). rewrite Hr in Hr'. apply Some_inj in Hr'. injection Hr' as ->.
    destruct vars as [|v vars]; [congruence|]. clear Hne. cbn [select map] in *.
    pose proof (ses_gadget E pc g tr _ _ _ s t _ _ _ _ Hs (simg_same _ _ (select_loop_same _ _ _)) Hr (loop_vrun E e0 vars _ t)) as Hs'.
    set (t' := mkV _ _ _ _ _ _ _) in Hs'.
    assert (Hd' : p_def (p_constrain s1 p) = []) by (unfold p_constrain; cbn [p_def]; destruct Hf as (_ & _ & _ & Hf); congruence).
    destruct (late_exact E pc g tr _ t' dbg rnd pf trf Hs' Hd' Hw Hc HB Hp Hnz) as (t2 & y & z & x & Hch & Hl).
    exists y, z, x. intros e. set (cs := v_cs t ++ loop_cs e (lc_sub (lc_var v) (lc_const e)) vars (v_num t)).
    destruct (session_agree E pc g tr _ _ Hs') as [_ Ha]. pose proof (ag_cs _ _ _ _ Ha) as Hcs. cbn [t' v_cs p_constrain p_cs] in Hcs.
    destruct (Hl cs) as [Hce Hve].
    { unfold same_weights. cbn [p_constrain p_cs]. rewrite Hcs. unfold cs. rewrite !map_app. f_equal. apply loop_weights. reflexivity. }
    rewrite (loop_vrun E e vars _ t). eexists _, _. split; [reflexivity|]. split; [exact Hce|]. intros dbg' rr. change (mkV _ _ _ _ _ _ _) with (v_restated t' cs). rewrite Hve.
    rewrite batched_constraints_peval.
    assert (Hz : peval (map (lc_val (p_asg s1)) cs) z = fpow z (length (v_cs t)) * (differences e0 (map (p_asg s) (v :: vars)) * fpow z (2 * length vars) - (e - e0) * peval (loop_marks 1 (length vars)) z)).
    { unfold cs. rewrite map_app, peval_app, map_length. rewrite (loop_values (p_asg s1) e e0 vars z eq_refl _ (lc_sub (lc_var v) (lc_const e0)) 1) by (lcv; rewrite !lc_val_const by reflexivity; ring).
      assert (H0 : peval (map (lc_val (p_asg s1)) (p_cs s1 ++ [p])) z = fpow z (length (v_cs t) + 2 * length vars) * differences e0 (map (p_asg s) (v :: vars))).
      { rewrite map_app, peval_app, map_length. cbn [map peval]. rewrite Hval, peval_zero. 2:{ apply Forall_map. eapply Forall_impl; [|exact (proj2 Hh1)]. intros lc [_ H]. exact H. }
        assert (Hlen : length (p_cs s1) = (length (v_cs t) + 2 * length vars)%nat). { apply (f_equal (@length _)) in Hcs. rewrite !app_length, loop_length in Hcs. cbn in Hcs. lia. }
        rewrite Hlen. ring. }
      rewrite Hcs, map_app, peval_app, map_length in H0. rewrite fpow_add in H0.
      transitivity (peval (map (lc_val (p_asg s1)) (v_cs t)) z + fpow z (length (v_cs t)) * peval (map (lc_val (p_asg s1)) (loop_cs e0 (lc_sub (lc_var v) (lc_const e0)) vars (v_num t))) z + fpow z (length (v_cs t)) * ((e0 - e) * peval (loop_marks 1 (length vars)) z)); [ring|].
      rewrite H0. ring. }
    change (p_asg (p_constrain s1 p)) with (p_asg s1). rewrite Hz. unfold marks. cbn [length]. replace (S (length vars) - 1)%nat with (length vars) by lia.
    split; (intros [H|[H|H]]; [left; exact H|right; left; exact H|right; right]).
    - apply fmul_eq_0 in H as [H|H]; [left; exact H|]. apply fmul_eq_0 in H as [H|H]; [left; destruct (f_eq_dec z 0) as [Ez|Ez]; [exact Ez|exfalso; exact (fpow_neq_0 _ _ Ez H)]|right]. apply (proj1 (fsub_0_iff _ _)) in H. symmetry. exact H.
    - destruct H as [->|H]; [ring|]. change (map (p_asg s) (v :: vars)) with (p_asg s v :: map (p_asg s) vars). rewrite <- H. ring.
  Qed.
End Late.
