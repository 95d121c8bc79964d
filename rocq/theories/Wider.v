(** * Verifiers that declare larger dimensions than the prover committed to

    coin.rs 589 commits the re-randomized coin with dimension [L], the prover with two
    values.  The verification tuple depends on the dimensions only through the padded
    size of the circuit. *)
From Verif Require Export CSSpec R1CSSpec.
From Verif Require Import CSProofs UtilProofs Lockstep CSMore R1CS FlatProofs IPPProofs R1CSPoly R1CSProofs R1CSCore R1CSVerif R1CSMain R1CSMore.
Local Open Scope F_scope.

Section Wider.
  Context {F : Field} {V : VSpace F} (E : TrEnv V) (D : nat).
  Add Field FFwide : (f_th F).

  (* vocabulary of specifications and proofs, no code modelled *)
  Definition v_with (t : VState V) (vs : list (V * nat)) : VState V := mkV (v_tr t) (v_cs t) vs (v_num t) (v_V t) (v_def t) (v_pend t).
  (* vocabulary of specifications and proofs, no code modelled *)
  Definition wider_vec (vs vs' : list (V * nat)) : Prop := Forall2 (fun a b => fst a = fst b /\ (snd b <= snd a <= Nat.max (snd b) D)%nat) vs vs'.
  (** [t] is [t'] with dimensions at least as large; those that differ are at most [D]. *)
  Definition wider (t t' : VState V) : Prop := exists vs, t = v_with t' vs /\ wider_vec vs (v_vec t').

  Lemma v_with_self t : v_with t (v_vec t) = t. Proof. destruct t; reflexivity. Qed.
  Lemma wider_refl t : wider t t.
  Proof. exists (v_vec t). rewrite v_with_self. split; [reflexivity|]. induction (v_vec t); constructor; [|assumption]. split; [reflexivity|lia]. Qed.

  Lemma vrun_with {A} (p : Prog F A) : forall t vs, vrun E p (v_with t vs) = match vrun E p t with Some (t1, a) => Some (v_with t1 vs, a) | None => None end.
  Proof.
    induction p; intros t vs; cbn [vrun].
    - reflexivity.
    - reflexivity.
    - match goal with |- context [v_multiply (v_with t vs) ?a ?b] => change (v_multiply (v_with t vs) a b) with (v_with (fst (v_multiply t a b)) vs, snd (v_multiply t a b)); destruct (v_multiply t a b) as [s' v] end. cbn [fst snd]. auto.
    - unfold v_allocate. cbn [v_with v_pend v_num]. destruct (v_pend t) as [i|].
      + change (v_set_num (v_with t vs) (v_num t) None) with (v_with (v_set_num t (v_num t) None) vs). auto.
      + match goal with |- context [v_set_num (v_with t vs) ?a ?b] => change (v_set_num (v_with t vs) a b) with (v_with (v_set_num t a b) vs) end. auto.
    - unfold v_allocate_multiplier. cbn [v_with v_num v_pend]. match goal with |- context [v_set_num (v_with t vs) ?a ?b] => change (v_set_num (v_with t vs) a b) with (v_with (v_set_num t a b) vs) end. auto.
    - match goal with |- context [v_constrain (v_with t vs) ?a] => change (v_constrain (v_with t vs) a) with (v_with (v_constrain t a) vs) end. auto.
    - match goal with |- context [v_set_tr (v_with t vs) ?a] => change (v_set_tr (v_with t vs) a) with (v_with (v_set_tr t a) vs) end. cbn [v_with v_tr]. auto.
    - change (v_metrics (v_with t vs)) with (v_metrics t). auto.
    - cbn [v_with v_tr]. destruct (challenge_scalar E (v_tr t) _) as [[c tr]|]; [|reflexivity].
      match goal with |- context [v_set_tr (v_with t vs) ?a] => change (v_set_tr (v_with t vs) a) with (v_with (v_set_tr t a) vs) end. auto.
    - cbn [v_with v_def]. match goal with |- context [v_set_def (v_with t vs) ?a] => change (v_set_def (v_with t vs) a) with (v_with (v_set_def t a) vs) end. auto.
  Qed.
  Lemma vrun_wider {A} (p : Prog F A) t t' t1' a : wider t t' -> vrun E p t' = Some (t1', a) -> exists t1, vrun E p t = Some (t1, a) /\ wider t1 t1'.
  Proof.
    intros (vs & -> & Hw) H. rewrite vrun_with, H. eexists. split; [reflexivity|]. exists vs. split; [reflexivity|].
    destruct (vrun_frame E _ _ _ _ _ H) as (-> & _). exact Hw.
  Qed.
  Lemma wider_len t t' : wider t t' -> length (v_vec t) = length (v_vec t').
  Proof. intros (vs & -> & Hw). exact (Forall2_len Hw). Qed.
  Lemma commit_wider t t' d d' c : wider t t' -> (d' <= d <= Nat.max d' D)%nat -> wider (fst (v_commit_vec E t d c)) (fst (v_commit_vec E t' d' c)).
  Proof.
    intros (vs & -> & Hw) Hd. exists (vs ++ [(c, d)]). split; [reflexivity|]. apply Forall2_app; [exact Hw|]. constructor; [split; [reflexivity|exact Hd]|constructor].
  Qed.
  Lemma commit_vars t d c : snd (v_commit_vec E t d c) = map (VectorCommit (length (v_vec t))) (seq 0 d). Proof. reflexivity. Qed.
  Lemma constrain_wider t t' lc : wider t t' -> wider (v_constrain t lc) (v_constrain t' lc).
  Proof. intros (vs & -> & Hw). exists vs. split; [reflexivity|exact Hw]. Qed.

  Lemma fold_max_le (vec : list (V * nat)) k : forall n0, (n0 <= k)%nat -> Forall (fun cd => (snd cd <= k)%nat) vec -> (fold_left (fun n cd => Nat.max (snd cd) n) vec n0 <= k)%nat.
  Proof. induction vec as [|cd vec IH]; intros n0 Hn HF; cbn [fold_left]; [exact Hn|]. inversion_clear HF. apply IH; [lia|assumption]. Qed.
  Lemma wider_size t t' : wider t t' -> (D <= v_size t')%nat -> v_size t = v_size t'.
  Proof.
    intros (vs & -> & Hw) HD. unfold v_size in *. cbn [v_with v_vec v_num]. apply Nat.le_antisymm.
    - apply fold_max_le; [apply fold_max_ge|]. pose proof (fold_max_all (v_vec t') (v_num t')) as HF. revert HD HF. generalize (fold_left (fun n cd => Nat.max (snd cd) n) (v_vec t') (v_num t')). intros k HD HF.
      clear -Hw HF HD. induction Hw as [|a b l l' [_ Hd] Hw IH]; [constructor|]. inversion_clear HF. constructor; [lia|apply IH; assumption].
    - apply fold_max_le; [apply fold_max_ge|]. pose proof (fold_max_all vs (v_num t')) as HF. revert HF. generalize (fold_left (fun n cd => Nat.max (snd cd) n) vs (v_num t')). intros k HF.
      clear -Hw HF. induction Hw as [|a b l l' [_ Hd] Hw IH]; [constructor|]. inversion_clear HF. constructor; [lia|apply IH; assumption].
  Qed.

  (** *** The verification tuple *)

  (* vocabulary of specifications and proofs, no code modelled *)
  Definition longer (r r' : list F) : Prop := exists k, r = r' ++ zeros k.
  (* vocabulary of specifications and proofs, no code modelled *)
  Definition flat_wider (fl fl' : Flat F) : Prop :=
    wL fl = wL fl' /\ wR fl = wR fl' /\ wO fl = wO fl' /\ wV fl = wV fl' /\ wc fl = wc fl' /\ Forall2 longer (wVC fl) (wVC fl').
  Lemma upd_app (r l : list F) f : forall i, (i < length r)%nat -> upd (r ++ l) i f = upd r i f ++ l.
  Proof. induction r as [|x r IH]; intros [|i] H; cbn in *; try lia; auto. f_equal. apply IH. lia. Qed.
  Lemma Forall2_upd (R : list F -> list F -> Prop) l l' x x' : forall j, Forall2 R l l' -> R x x' -> Forall2 R (upd l j (fun _ => x)) (upd l' j (fun _ => x')).
  Proof. intros j H Hx. revert j. induction H; intros [|j]; cbn; constructor; auto. Qed.
  Lemma Forall2_nth (R : list F -> list F -> Prop) l l' : Forall2 R l l' -> forall j x', nth_error l' j = Some x' -> exists x, nth_error l j = Some x /\ R x x'.
  Proof. induction 1; intros [|j] x' Hx; cbn in *; try discriminate; eauto. apply Some_inj in Hx. subst. eauto. Qed.
  Lemma flat_term_wider b e fl g t g' : flat_wider fl g -> flat_term b e g t = Some g' -> exists fl', flat_term b e fl t = Some fl' /\ flat_wider fl' g'.
  Proof.
    intros (H1 & H2 & H3 & H4 & H5 & H6). destruct fl as [a0 b0 c0 d0 e1 f], g as [a' b' c' d' e1' f'].
    cbn [wL wR wO wV wVC wc] in *. subst a' b' c' d' f'. destruct t as [v k]. unfold flat_term; cbn [wL wR wO wV wVC wc].
    destruct v as [j i|i|i|i|i|].
    - destruct (nth_error e1' j) as [row'|] eqn:Er; [|discriminate]. cbn [opt_bind]. destruct (Forall2_nth _ _ _ H6 _ _ Er) as (row & -> & n & ->). cbn [opt_bind].
      unfold upd_opt. rewrite app_length. destruct (Nat.ltb_spec i (length row')) as [Hi|]; [|discriminate]. rewrite (proj2 (Nat.ltb_lt i _)) by lia. cbn [opt_bind].
      intros H; apply Some_inj in H; subst. eexists. split; [reflexivity|]. repeat split. cbn [wVC]. apply Forall2_upd; [exact H6|]. exists n. apply upd_app. exact Hi.
    - destruct (upd_opt _ i _) as [row'|]; [|discriminate]. cbn [opt_bind]. intros H; apply Some_inj in H; subst. eexists; split; [reflexivity|]. repeat split; exact H6.
    - destruct (upd_opt _ i _) as [row'|]; [|discriminate]. cbn [opt_bind]. intros H; apply Some_inj in H; subst. eexists; split; [reflexivity|]. repeat split; exact H6.
    - destruct (upd_opt _ i _) as [row'|]; [|discriminate]. cbn [opt_bind]. intros H; apply Some_inj in H; subst. eexists; split; [reflexivity|]. repeat split; exact H6.
    - destruct (upd_opt _ i _) as [row'|]; [|discriminate]. cbn [opt_bind]. intros H; apply Some_inj in H; subst. eexists; split; [reflexivity|]. repeat split; exact H6.
    - intros H; apply Some_inj in H; subst. eexists; split; [reflexivity|]. destruct b; repeat split; exact H6.
  Qed.
  Lemma flat_terms_wider b e ts : forall fl g g', flat_wider fl g -> flat_terms b e ts g = Some g' -> exists fl', flat_terms b e ts fl = Some fl' /\ flat_wider fl' g'.
  Proof.
    induction ts as [|t ts IH]; intros fl g g' Hs H; cbn [flat_terms] in *; [apply Some_inj in H; subst; eauto|].
    destruct (flat_term b e g t) as [f1|] eqn:E1; [|discriminate]. cbn [opt_bind] in H. destruct (flat_term_wider _ _ _ _ _ _ Hs E1) as (g1 & -> & Hs1). cbn [opt_bind]. eapply IH; eassumption.
  Qed.
  Lemma flat_loop_wider b z cs : forall e fl g g', flat_wider fl g -> flat_loop b z e cs g = Some g' -> exists fl', flat_loop b z e cs fl = Some fl' /\ flat_wider fl' g'.
  Proof.
    induction cs as [|t ts IH]; intros e fl g g' Hs H; cbn [flat_loop] in *; [apply Some_inj in H; subst; eauto|].
    destruct (flat_terms b e t g) as [f1|] eqn:E1; [|discriminate]. cbn [opt_bind] in H. destruct (flat_terms_wider _ _ _ _ _ _ Hs E1) as (g1 & -> & Hs1). cbn [opt_bind]. eapply IH; eassumption.
  Qed.
  Lemma v_flatten_wider t t' z fl' : wider t t' -> v_flatten t' z = Some fl' -> exists fl, v_flatten t z = Some fl /\ flat_wider fl fl'.
  Proof.
    intros (vs & -> & Hw). unfold v_flatten. cbn [v_with v_cs v_num v_V v_vec]. apply flat_loop_wider. unfold flat_init. repeat split. cbn [wVC].
    rewrite !map_map. induction Hw as [|[a d] [b d'] l l' [_ Hd] Hw IH]; cbn [map snd] in *; constructor; [|exact IH].
    exists (d - d')%nat. unfold zeros. rewrite <- repeat_app. f_equal. lia.
  Qed.
  Lemma nth_longer r r' i : longer r r' -> nth i r 0 = nth i r' 0.
  Proof.
    intros (k & ->). destruct (Nat.lt_ge_cases i (length r')) as [H|H]; [apply app_nth1, H|]. rewrite app_nth2 by exact H. rewrite (nth_overflow r') by exact H. unfold zeros. apply nth_repeat.
  Qed.
  Lemma slots_sum_wider sd ov rows rows' x i : Forall2 longer rows rows' -> slots_sum sd ov rows x i = slots_sum sd ov rows' x i.
  Proof.
    intros H. unfold slots_sum. f_equal. revert ov. induction H as [|r r' rows rows' Hr H IH]; intros [|o ov]; cbn [zipw]; try reflexivity. rewrite (nth_longer _ _ i Hr), IH. reflexivity.
  Qed.
  Lemma v_scalars_wider dbg rr pf t t' vt : wider t t' -> v_def t' = [] -> v_size t = v_size t' ->
    v_scalars_and_points E dbg rr pf t' = Some (Ok vt) -> v_scalars_and_points E dbg rr pf t = Some (Ok vt).
  Proof.
    intros Hw Hd Hsz H. pose proof (wider_len _ _ Hw) as Hl. destruct (v_facts_of_scalars E dbg rr pf t' vt H) as (t2' & y & z & u & x & w & fl' & us & Hf).
    pose proof (v_scalars_of_facts E dbg rr pf t' t2' y z u x w fl' us Hf) as Hv'. rewrite Hv' in H. rewrite <- H. clear H.
    destruct Hf as [F1 F2 F3 F4 F5 F6].
    destruct (v_pad_facts t') as (P1 & P2 & P3 & P4 & P5 & P6 & P7), (v_pad_facts t) as (Q1 & Q2 & Q3 & Q4 & Q5 & Q6 & Q7). cbv zeta in *.
    destruct Hw as (vs & Ht & Hw). assert (EV : v_V t = v_V t') by (rewrite Ht; reflexivity). assert (ET : v_tr t = v_tr t') by (rewrite Ht; reflexivity).
    assert (ED : v_def t = []) by (rewrite Ht; exact Hd). assert (EC : v_cs t = v_cs t') by (rewrite Ht; reflexivity). assert (EVs : v_vec t = vs) by (rewrite Ht; reflexivity).
    unfold v_create_randomized in F3. change (v_def (v_set_num (v_set_tr ?a ?b) ?c ?d)) with (v_def a) in F3. rewrite P5, Hd in F3. apply Some_inj in F3. injection F3 as F3.
    set (t2 := v_with t2' vs).
    assert (W2 : wider t2 t2'). { exists vs. split; [reflexivity|]. rewrite <- F3. cbn. rewrite P2. exact Hw. }
    assert (S2 : v_size t2' = v_size t'). { rewrite <- F3. unfold v_size at 1. cbn. rewrite P2, P1. unfold v_size. apply fold_max_bounded, fold_max_all. }
    assert (Vn : v_num t2' = v_size t') by (rewrite <- F3; cbn; rewrite P1; reflexivity).
    assert (S2w : v_size t2 = v_size t). { unfold v_size at 1. cbn [t2 v_with v_vec v_num]. rewrite Vn, <- Hsz, <- EVs. unfold v_size. apply fold_max_bounded, fold_max_all. }
    destruct (v_flatten_wider _ _ _ _ W2 F5) as (fl & Hfl & Hflw).
    rewrite (v_scalars_of_facts E dbg rr pf t t2 y z u x w fl us).
    - f_equal. f_equal. destruct Hflw as (L1 & L2 & L3 & L4 & L5 & L6). unfold run_tuple. rewrite S2w, S2, Hsz, Hl, L1, L2, L3, L4, L5.
      change (v_V t2) with (v_V t2'). rewrite (wider_len _ _ W2). destruct W2 as (vs2 & E2 & W2).
      assert (Hpts : map fst (v_vec t2) = map fst (v_vec t2')). { rewrite E2. cbn [v_with v_vec]. clear - W2. induction W2 as [|a b l l' [Ha _] W IH]; cbn; congruence. }
      rewrite Hpts. f_equal. f_equal. f_equal. f_equal. apply map_ext. intros i. rewrite (slots_sum_wider _ _ _ _ _ _ L6). reflexivity.
    - constructor.
      + rewrite Hl. intros Db. destruct (F1 Db) as (D1 & D2 & D3). split; [exact D1|]. split; [exact D2|]. destruct D3 as [D3|D3]; [left|right; exact D3]. rewrite D3 in Hl. destruct (v_vec t); [reflexivity|discriminate Hl].
      + exact F2.
      + unfold v_create_randomized. change (v_def (v_set_num (v_set_tr ?a ?b) ?c ?d)) with (v_def a). rewrite Q5, ED. f_equal. f_equal. unfold t2. rewrite <- F3.
        unfold v_with, v_set_tr, v_set_num. cbn [v_tr v_cs v_vec v_num v_V v_def v_pend]. rewrite Q1, Q2, Q3, Q5, Q6, P1, P3, P5, P6, EV, ET, EC, ED, Hd, Hsz, EVs. reflexivity.
      + rewrite Hl, S2w, Hsz. rewrite S2 in F4. exact F4.
      + exact Hfl.
      + exact F6.
  Qed.
  (** A proof of the wrong length never gives a tuple. *)
  Lemma v_scalars_rounds dbg rr pf t vt : v_def t = [] -> v_scalars_and_points E dbg rr pf t = Some (Ok vt) -> next_power_of_two (v_size t) = (2 ^ length (ipp_L (pipp pf)))%nat.
  Proof.
    intros Hd H. destruct (v_facts_of_scalars E dbg rr pf t vt H) as (t2 & y & z & u & x & w & fl & us & [F1 F2 F3 (a1 & a2 & a3 & a4 & a5 & a6 & a7 & _ & _ & _ & _ & _ & _ & F4) F5 F6]).
    apply verification_scalars_spec in F4 as (us' & tr' & _ & _ & Hn & _).
    destruct (one_phase_v E t (append_point E (append_point E (append_point E (append_u64 (v_tr t) "m" (N.of_nat (length (v_V t)))) "A_I1" (A_I1 pf)) "A_O1" (A_O1 pf)) "S1" (S1 pf)) Hd) as (t2' & H2 & H3 & _).
    rewrite F3 in H2. apply Some_inj in H2. injection H2 as <-. rewrite <- H3. exact Hn.
  Qed.
End Wider.
