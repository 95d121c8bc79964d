(** * Prover and verifier run the same gadget whenever the prover does not panic *)
From Verif Require Export SelRerand SinglePanics.
From Verif Require Import CSProofs UtilProofs Lockstep CSMore.
Local Open Scope F_scope.

Section Sim.
  Context {F : Field} {S : PField} {C : SWCurve F S}.
  Implicit Types (sl : SLParams C).

  Lemma sim_unwrap {A B B'} (R : B -> B' -> Prop) (o : option A) (k : A -> Prog F B) p' : (forall a, o = Some a -> simg R (k a) p') -> simg R (punwrap o k) p'.
  Proof. intros H. destruct o as [a|]; cbn [punwrap]; [apply H; reflexivity|constructor]. Qed.

  Lemma rerand_witness_full m table r i (acc : C) wit acc' : (1 <= i)%nat -> rerand_witness m table (Some r) i acc = Some (wit, acc') -> wit_full i m wit.
  Proof.
    intros Hi. unfold rerand_witness. destruct (if (i =? 1)%nat then Some (0, 0) else coords acc) as [[xl yl]|]; cbn [opt_bind]; [|discriminate].
    set (xr := row_at (nth 0 table []) _). set (yr := row_at (nth 1 table []) _).
    destruct (if (i =? 1)%nat then Some None else option_map Some (fdiv_opt (yr - yl) (xr - xl))) as [dl|] eqn:Ed; cbn [opt_bind]; [|discriminate].
    destruct (if (i =? m)%nat then option_map Some (fdiv_opt 1 (xl - xr)) else Some None) as [iv|] eqn:Ei; cbn [opt_bind]; [|discriminate].
    destruct (of_coords xr yr) as [e|]; cbn [opt_bind]; [|discriminate]. destruct (coords (vadd acc e)) as [[x y]|]; cbn [opt_bind]; [|discriminate].
    intros H. apply Some_inj, pair_inj in H as [<- _]. unfold wit_full. cbn [rw_index rw_x rw_y rw_delta rw_inv]. split; [eauto|]. split; [discriminate|]. split; [discriminate|]. split.
    - intros H. destruct (Nat.eqb_spec i 1) as [H1|_]; [lia|]. destruct (fdiv_opt (yr - yl) (xr - xl)); cbn [option_map] in Ed; [|discriminate Ed]. apply Some_inj in Ed. subst dl. discriminate.
    - intros H. destruct (Nat.eqb_spec i m) as [_|H1]; [|contradiction]. destruct (fdiv_opt 1 (xl - xr)); cbn [option_map] in Ei; [|discriminate Ei]. apply Some_inj in Ei. subst iv. discriminate.
  Qed.
  Lemma loop_sim tied m tables r : forall k i (acc acc' : C) ax ay bits, (1 <= i)%nat ->
    simg (fun a b => snd (fst (fst a)) = snd (fst (fst b)) /\ snd (fst a) = snd (fst b) /\ snd a = snd b)
      (rerand_loop tied m tables (Some r) k i acc ax ay bits) (rerand_loop tied m tables None k i acc' ax ay bits).
  Proof.
    induction k as [|k IH]; intros i acc acc' ax ay bits Hi; cbn [rerand_loop]; [constructor; auto|].
    apply sim_unwrap. intros table ->. cbn [punwrap]. apply sim_unwrap. intros [wit acc1] HW. cbn [rerand_witness punwrap].
    apply iter_same; [eapply rerand_witness_full; eassumption|reflexivity|]. intros bs xv yv. apply IH. lia.
  Qed.
  Lemma final_sim x y (P : C) xt yt (acc acc' : C) ax ay :
    simg eq (rerand_final (mkPRep x y (Some P)) xt yt acc ax ay) (rerand_final (mkPRep x y (None : option C)) xt yt acc' ax ay).
  Proof.
    unfold rerand_final. cbn [pr_w pr_x pr_y]. apply sim_unwrap. intros [xl yl] _. apply sim_unwrap. intros [xr yr] _.
    apply sim_unwrap. intros d _. apply sim_unwrap. intros iv _. apply checked_same; [repeat split|discriminate|discriminate].
  Qed.
  Lemma rerand_sim tied (A0 A0' : C) ts x y P xt yt (r : S) :
    simg eq (re_randomize_from tied A0 ts (mkPRep x y (Some P)) xt yt (Some r)) (re_randomize_from tied A0' ts (mkPRep x y None) xt yt None).
  Proof.
    unfold re_randomize_from. cbn [option_map]. eapply simg_bind; [apply loop_sim; lia|]. intros [[[acc ax] ay] bits] [[[acc' ax'] ay'] bits'] (E1 & E2 & E3). cbn [fst snd] in E1, E2, E3. subst ax' ay' bits'.
    eapply simg_bind; [apply final_sim|]. intros ? ? _. constructor. reflexivity.
  Qed.
  Lemma single_sim tied A0 A0' enc sl R children (P : C) (r : S) :
    simg eq (single_level_from tied A0 enc sl R children (Some P) (Some r)) (single_level_from tied A0' enc sl R children None None).
  Proof.
    unfold single_level_from. unfold palloc. cbn [option_map]. constructor. constructor. intros xv. eapply simg_bind; [apply select_same|]. intros ? ? _.
    constructor. intros yv. eapply simg_bind; [apply curve_check_same|]. intros ? ? _. apply rerand_sim.
  Qed.
  Lemma single_level_sim enc sl R children (P : C) (r : S) : simg eq (single_level enc sl R children (Some P) (Some r)) (single_level enc sl R children None None).
  Proof. unfold single_level. eapply simg_bind; [apply single_sim|]. intros ? ? _. constructor. reflexivity. Qed.

  (* vocabulary of specifications and proofs, no code modelled *)
  Definition prep_sim (a b : PRep C) : Prop := pr_x a = pr_x b /\ pr_y a = pr_y b /\ pr_w a <> None /\ pr_w b = None.
  Lemma checked_helper_sim (xl yl xr yr : LC F) (P Q : C) :
    simg prep_sim (checked_helper (mkPRep xl yl (Some P)) (mkPRep xr yr (Some Q))) (checked_helper (mkPRep xl yl (None : option C)) (mkPRep xr yr None)).
  Proof.
    unfold checked_helper. cbn [pr_w pr_x pr_y]. apply sim_unwrap. intros [? ?] _. apply sim_unwrap. intros [? ?] _. apply sim_unwrap. intros d _. apply sim_unwrap. intros iv _.
    apply sim_unwrap. intros [xo yo] _. unfold palloc. constructor. intros xv. constructor. intros yv. eapply simg_bind; [apply checked_same; [repeat split|discriminate|discriminate]|].
    intros ? ? _. constructor. unfold prep_sim. cbn [pr_x pr_y pr_w]. split; [reflexivity|]. split; [reflexivity|]. split; [discriminate|reflexivity].
  Qed.
  Lemma batched_loop_sim sl all : forall chunks i (sum sum' : PRep C), pr_x sum = pr_x sum' -> pr_y sum = pr_y sum' -> pr_w sum <> None -> pr_w sum' = None ->
    simg prep_sim (batched_loop sl (Some all) i chunks sum) (batched_loop sl None i chunks sum').
  Proof.
    induction chunks as [|c chunks IH]; intros i sum sum' Ex Ey Hw Hn; cbn [batched_loop]; [constructor; unfold prep_sim; auto|].
    apply sim_unwrap. intros wit HW. cbn [punwrap]. destruct (nth_error all i) as [P|]; cbn [option_map] in HW; [|discriminate HW]. apply Some_inj in HW. subst wit.
    unfold palloc. cbn [option_map]. constructor. intros xv. constructor. intros yv. eapply simg_bind; [apply select_same|]. intros ? ? _. eapply simg_bind; [apply curve_check_same|]. intros ? ? _.
    eapply simg_bind with (R := prep_sim).
    - destruct (i =? 0)%nat; [constructor; unfold prep_sim; cbn [pr_x pr_y pr_w]; split; [reflexivity|]; split; [reflexivity|]; split; [discriminate|reflexivity]|].
      destruct sum as [sx sy [sw|]], sum' as [sx' sy' sw']; cbn [pr_x pr_y pr_w] in *; [|contradiction]. subst sx' sy' sw'. apply checked_helper_sim.
    - intros pa pb (E1 & E2 & E3 & E4). apply IH; assumption.
  Qed.
  Lemma batched_level_sim M sl sum children (Ps : list C) (r : S) :
    simg eq (single_level_batched M sl sum children (Some Ps) (Some r)) (single_level_batched M sl sum children None None).
  Proof.
    unfold single_level_batched, single_level_batched_from. destruct ((M =? 0) || (length children / M =? 0))%nat; cbn [pbind]; [constructor|]. cbn [option_map].
    eapply simg_bind; [|intros ? ? _; constructor; reflexivity].
    eapply simg_bind; [apply batched_loop_sim; [reflexivity|reflexivity|discriminate|reflexivity]|].
    intros [sx sy [sw|]] [sx' sy' sw'] (E1 & E2 & E3 & E4); cbn [pr_x pr_y pr_w] in *; [|contradiction]. subst sx' sy' sw'. apply rerand_sim.
  Qed.
End Sim.

Section SimLeaves.
  Context {F0 F1 : PField} {P1 : SWCurve F0 F1}.
  Lemma leaves_sim enc (prm : SLParams P1) sel wits : forall chunks i, simg eq (leaves_loop enc prm sel (Some wits) i chunks) (leaves_loop enc prm sel None i chunks).
  Proof.
    induction chunks as [|c chunks IH]; intros i; cbn [leaves_loop]; [constructor; reflexivity|].
    apply sim_unwrap. intros R ->. cbn [punwrap]. apply sim_unwrap. intros wit HW. destruct (nth_error wits i) as [[P r]|]; cbn [option_map] in HW; [|discriminate HW]. apply Some_inj in HW. subst wit.
    cbn [option_map fst snd]. eapply simg_bind; [apply single_level_sim|]. intros ? ? _. apply IH.
  Qed.
  Lemma leaves_gadget_sim M enc (prm : SLParams P1) sel wits vars : simg eq (leaves_gadget M enc prm sel (Some wits) vars) (leaves_gadget M enc prm sel None vars).
  Proof. unfold leaves_gadget. destruct ((M =? 0) || (length vars / M =? 0))%nat; [constructor|apply leaves_sim]. Qed.
End SimLeaves.

(** ** Whole lists of levels *)
Section Run.
  Context {F : Field} {V : VSpace F} (E : TrEnv V) (pc : PedersenGens V) (g : BPGens V) (tr : Transcript).

  (** The level of the prover and that of the verifier belong together. *)
  Record level_match (p : PLevel F) (v : VLevel V) : Prop := mkLM {
    lm_src : vl_src v = if feqb (pl_r p) 0 then inl (pl_xs p) else inr (length (pl_xs p), vec_commitment pc g (pl_r p) (pl_xs p));
    lm_sim : forall vars, simg eq (pl_gadget p vars) (vl_gadget v vars) }.

  (** A relation between the states of the prover and the verifier that gadgets and
      vector commitments preserve. *)
  Record locked (R : PState F -> VState V -> Prop) : Prop := mkLocked {
    lk_gadget : forall A (p p' : Prog F A) s t s' a, R s t -> same_gadget p p' -> prun E p s = Some (s', a) -> exists t', vrun E p' t = Some (t', a) /\ R s' t';
    lk_commit_vec : forall s t v vb s' c us, R s t -> p_commit_vec E pc g s v vb = Some (s', (c, us)) ->
      snd (v_commit_vec E t (length v) c) = us /\ R s' (fst (v_commit_vec E t (length v) c)) }.
  Lemma session_locked : locked (session E pc g tr).
  Proof.
    split.
    - intros A p p' s t s' a Hses Hsg R. destruct (session_agree E pc g tr _ _ Hses) as [Hg Ha].
      destruct (lockstep_prun E pc g _ _ _ _ s' a Hsg Hg Ha R) as (t' & Ht & _). exists t'. split; [exact Ht|]. eapply ses_gadget; eassumption.
    - intros s t v vb s' c us Hses Ec. split; [|eapply ses_commit_vec; eassumption]. destruct (session_agree E pc g tr _ _ Hses) as [_ Ha0].
      destruct (v_commit_vec E t (length v) c) as [t1 us'] eqn:Ev. destruct (lockstep_commit_vec E pc g _ _ _ _ _ _ _ _ _ Ha0 Ec Ev) as [<- _]. reflexivity.
  Qed.
  Lemma level_lockstep_R R p v s t s' : locked R -> level_match p v -> R s t -> prove_level E pc g s p = Some s' ->
    exists t', verify_level E t v = Some t' /\ R s' t'.
  Proof.
    intros HR [Hsrc Hsim] Hses. unfold prove_level, verify_level. rewrite Hsrc. destruct (feqb (pl_r p) 0).
    - cbn [opt_bind fst snd]. destruct (prun E (pl_gadget p (map lc_const (pl_xs p))) s) as [[s1 u]|] eqn:R1; cbn [opt_bind fst]; [|discriminate]. intros H. apply Some_inj in H. subst s1.
      destruct (lk_gadget _ HR _ _ _ _ _ _ _ Hses (simg_same _ _ (Hsim (map lc_const (pl_xs p)))) R1) as (t' & Ht & Hs'). exists t'. rewrite Ht. cbn [opt_bind fst]. auto.
    - destruct (p_commit_vec E pc g s (pl_xs p) (pl_r p)) as [[s1 [c us]]|] eqn:Ec; cbn [opt_bind fst snd]; [|discriminate].
      destruct (p_commit_vec_spec E pc g _ _ _ _ _ _ Ec) as (_ & Hc & Hus & _). rewrite <- Hc. destruct (lk_commit_vec _ HR _ _ _ _ _ _ _ Hses Ec) as [Hu Hses1].
      destruct (v_commit_vec E t (length (pl_xs p)) c) as [t1 us'] eqn:Ev. cbn [fst snd] in Hses1, Hu |- *. subst us'.
      destruct (prun E (pl_gadget p (map lc_var us)) s1) as [[s2 u]|] eqn:R1; cbn [opt_bind fst]; [|discriminate]. intros H. apply Some_inj in H. subst s2.
      destruct (lk_gadget _ HR _ _ _ _ _ _ _ Hses1 (simg_same _ _ (Hsim (map lc_var us))) R1) as (t' & Ht & Hs'). exists t'. rewrite Ht. cbn [opt_bind fst]. auto.
  Qed.
  Lemma levels_lockstep_R R : locked R -> forall ps vs s t s', Forall2 level_match ps vs -> R s t -> prove_levels E pc g s ps = Some s' ->
    exists t', verify_levels E t vs = Some t' /\ R s' t'.
  Proof.
    intros HR ps vs s t s' HF. revert s t. induction HF as [|p v ps vs Hm HF IH]; intros s t Hses H; cbn [prove_levels verify_levels] in *.
    - apply Some_inj in H. subst s'. eauto.
    - destruct (prove_level E pc g s p) as [s1|] eqn:E1; cbn [opt_bind] in H; [|discriminate].
      destruct (level_lockstep_R R _ _ _ _ _ HR Hm Hses E1) as (t1 & Ht1 & Hses1). rewrite Ht1. cbn [opt_bind]. exact (IH _ _ Hses1 H).
  Qed.
  Lemma level_lockstep p v s t s' : level_match p v -> session E pc g tr s t -> prove_level E pc g s p = Some s' ->
    exists t', verify_level E t v = Some t' /\ session E pc g tr s' t'.
  Proof. apply level_lockstep_R, session_locked. Qed.
  Lemma levels_lockstep : forall ps vs s t s', Forall2 level_match ps vs -> session E pc g tr s t -> prove_levels E pc g s ps = Some s' ->
    exists t', verify_levels E t vs = Some t' /\ session E pc g tr s' t'.
  Proof. apply levels_lockstep_R, session_locked. Qed.

  (** A level the honest prover gets through: the gadget succeeds whenever the
      children have the given values. *)
  Definition level_ok (p : PLevel F) : Prop :=
    G_vec g <> [] /\ (length (pl_xs p) <= length (nth 0 (G_vec g) []))%nat /\
    forall n s vars, honest_from n s -> Forall (lc_ok (issued s)) vars -> map (lc_val (p_asg s)) vars = pl_xs p ->
      exists s', prun E (pl_gadget p vars) s = Some (s', tt) /\ honest_from n s' /\ keeps s s'.
  Lemma keeps_trans (s1 s2 s3 : PState F) : keeps s1 s2 -> keeps s2 s3 -> keeps s1 s3.
  Proof. intros H1 H2 u Hu. destruct (H1 u Hu) as [I1 E1]. destruct (H2 u I1) as [I2 E2]. split; [exact I2|congruence]. Qed.
  Lemma level_total {n} p s : level_ok p -> honest_from n s -> exists s', prove_level E pc g s p = Some s' /\ honest_from n s' /\ keeps s s'.
  Proof.
    intros (Hgne & Hlen & Hok) Hh. unfold prove_level. destruct (feqb (pl_r p) 0).
    - cbn [opt_bind fst snd]. destruct (Hok n s (map lc_const (pl_xs p)) Hh) as (s' & R & Hh' & Hk).
      + apply Forall_map, Forall_forall. intros x _. apply lc_ok_const, issued_one.
      + rewrite map_map. transitivity (map (fun x : F => x) (pl_xs p)); [|apply map_id]. apply map_ext. intros x. apply lc_val_const. reflexivity.
      + rewrite R. cbn [opt_bind fst]. eauto.
    - destruct (p_commit_vec_total E pc g s (pl_xs p) (pl_r p) Hlen Hgne) as (s1 & [c us] & Ec). rewrite Ec. cbn [opt_bind fst snd].
      destruct (p_commit_vec_inv E pc g _ _ _ _ _ (proj1 Hh) Ec) as [Hg1 Hext]. destruct (p_commit_vec_returns E pc g _ _ _ _ _ _ Ec) as [Hlu Hus].
      pose proof (ext_keeps _ _ Hext) as Hk1.
      assert (Hh1 : honest_from n s1).
      { split; [exact Hg1|]. destruct (p_commit_vec_spec E pc g _ _ _ _ _ _ Ec) as (_ & _ & _ & Es). assert (Ecs : p_cs s1 = p_cs s) by (rewrite Es; reflexivity). rewrite Ecs.
        eapply Forall_impl; [|exact (proj2 Hh)]. intros lc [O1 O2]. split; [eapply lc_ok_sub; [|exact O1]; intros u Hu; apply Hk1, Hu|]. rewrite (keeps_val _ _ _ Hk1 O1). exact O2. }
      destruct (Hok n s1 (map lc_var us) Hh1) as (s' & R & Hh' & Hk).
      + apply Forall_map, Forall_forall. intros u Hu. apply lc_ok_var. destruct (In_nth _ _ One Hu) as (i & Hi & <-). apply Hus. lia.
      + rewrite map_map. apply nth_ext with (d := 0) (d' := 0); [rewrite map_length; exact Hlu|]. intros i Hi. rewrite map_length in Hi.
        rewrite (nth_indep _ 0 (lc_val (p_asg s1) (lc_var One))) by (rewrite map_length; exact Hi). rewrite (map_nth (fun x => lc_val (p_asg s1) (lc_var x))). rewrite lc_val_var.
        destruct (Hus i ltac:(lia)) as [_ Hv]. unfold p_asg. rewrite Hv. rewrite (nth_error_nth' _ 0) by lia. reflexivity.
      + rewrite R. cbn [opt_bind fst]. exists s'. split; [reflexivity|]. split; [exact Hh'|]. eapply keeps_trans; eassumption.
  Qed.
  Lemma levels_total {n} : forall ps s, Forall level_ok ps -> honest_from n s -> exists s', prove_levels E pc g s ps = Some s' /\ honest_from n s' /\ keeps s s'.
  Proof.
    induction ps as [|p ps IH]; intros s HF Hh; cbn [prove_levels].
    - exists s. split; [reflexivity|]. split; [exact Hh|]. intros u Hu. auto.
    - inversion_clear HF. destruct (level_total p s H Hh) as (s1 & R1 & Hh1 & Hk1). rewrite R1. cbn [opt_bind]. destruct (IH s1 H0 Hh1) as (s' & R2 & Hh2 & Hk2).
      exists s'. split; [exact R2|]. split; [exact Hh2|]. eapply keeps_trans; eassumption.
  Qed.
  Lemma simg_def {A B} (R : A -> B -> Prop) (p : Prog F A) (p' : Prog F B) : simg R p p' -> forall s s' a, prun E p s = Some (s', a) -> p_def s' = p_def s.
  Proof.
    induction 1 as [a0 b0 Hab|p'|l r k k' Hk IH|x o k k' Hk IH|x o k k' Hk IH|c k k' Hk IH|l m k k' Hk IH|k k' Hk IH]; intros s s' a R1; cbn [prun] in R1.
    - apply Some_inj, pair_inj in R1 as [<- _]. reflexivity.
    - discriminate R1.
    - destruct (p_multiply s l r) as [[s1 v]|] eqn:E1; [|discriminate R1]. rewrite (IH _ _ _ _ R1). unfold p_multiply in E1.
      destruct (p_eval s l) as [x|]; [|discriminate E1]. cbn [opt_bind] in E1. destruct (p_eval s r) as [y|]; [|discriminate E1]. cbn [opt_bind] in E1. apply Some_inj, pair_inj in E1 as [<- _]. reflexivity.
    - destruct (p_allocate s (Some x)) as [[s1 v]|] eqn:E1; [|discriminate R1]. unfold p_allocate in E1. 
      destruct (p_pend s) as [i|]; [destruct (nth_error (p_aR s) i); [|discriminate E1]; destruct (nth_error (p_aL s) i); [|discriminate E1]; destruct (nth_error (p_aO s) i); [|discriminate E1]|];
        apply Some_inj, pair_inj in E1 as [<- <-]; rewrite (IH _ _ _ _ R1); reflexivity.
    - destruct (p_allocate_multiplier s (Some x)) as [s1 v] eqn:E1. unfold p_allocate_multiplier in E1. destruct x as [xl xr]. apply pair_inj in E1 as [<- <-]. rewrite (IH _ _ _ _ R1). reflexivity.
    - rewrite (IH _ _ _ R1). reflexivity.
    - rewrite (IH _ _ _ R1). reflexivity.
    - rewrite (IH _ _ _ _ R1). reflexivity.
  Qed.
  Lemma levels_def : forall ps s s', Forall (fun p => exists f, forall vars, simg eq (pl_gadget p vars) (f vars)) ps -> prove_levels E pc g s ps = Some s' -> p_def s' = p_def s.
  Proof.
    induction ps as [|p ps IH]; intros s s' HF H; cbn [prove_levels] in H; [apply Some_inj in H; subst; reflexivity|]. inversion_clear HF. destruct H0 as (f & Hf).
    destruct (prove_level E pc g s p) as [s1|] eqn:E1; cbn [opt_bind] in H; [|discriminate]. rewrite (IH _ _ H1 H). clear IH H.
    unfold prove_level in E1. destruct (feqb (pl_r p) 0).
    - cbn [opt_bind fst snd] in E1. destruct (prun E (pl_gadget p (map lc_const (pl_xs p))) s) as [[s2 u]|] eqn:R; [|discriminate]. cbn [opt_bind fst] in E1. apply Some_inj in E1. subst s2. eapply simg_def; [apply Hf|exact R].
    - destruct (p_commit_vec E pc g s (pl_xs p) (pl_r p)) as [[s2 [c us]]|] eqn:Ec; cbn [opt_bind fst snd] in E1; [|discriminate].
      destruct (prun E (pl_gadget p (map lc_var us)) s2) as [[s3 u]|] eqn:R; [|discriminate]. cbn [opt_bind fst] in E1. apply Some_inj in E1. subst s3.
      rewrite (simg_def _ _ _ (Hf (map lc_var us)) _ _ _ R). destruct (p_commit_vec_spec E pc g _ _ _ _ _ _ Ec) as (_ & _ & _ & ->). reflexivity.
  Qed.
  (** if one level makes the prover panic, so does the whole list *)
  Lemma levels_each : forall ps s s', prove_levels E pc g s ps = Some s' -> Forall (fun p => exists s1 s2 vars, length vars = length (pl_xs p) /\ prun E (pl_gadget p vars) s1 = Some (s2, tt)) ps.
  Proof.
    induction ps as [|p ps IH]; intros s s' H; cbn [prove_levels] in H; [constructor|].
    destruct (prove_level E pc g s p) as [s1|] eqn:E1; cbn [opt_bind] in H; [|discriminate]. constructor; [|exact (IH _ _ H)].
    unfold prove_level in E1. destruct (feqb (pl_r p) 0).
    - cbn [opt_bind fst snd] in E1. destruct (prun E (pl_gadget p (map lc_const (pl_xs p))) s) as [[s2 []]|] eqn:R; [|discriminate]. exists s, s2, (map lc_const (pl_xs p)). rewrite map_length. auto.
    - destruct (p_commit_vec E pc g s (pl_xs p) (pl_r p)) as [[s2 [c us]]|] eqn:Ec; cbn [opt_bind fst snd] in E1; [|discriminate].
      destruct (prun E (pl_gadget p (map lc_var us)) s2) as [[s3 []]|] eqn:R; [|discriminate]. destruct (p_commit_vec_returns E pc g _ _ _ _ _ _ Ec) as [Hlu _].
      exists s2, s3, (map lc_var us). rewrite map_length. auto.
  Qed.
End Run.
