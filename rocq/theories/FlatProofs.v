(** * Flattening *)
From Verif Require Import CSSpec CSProofs UtilProofs Lockstep.
Local Open Scope F_scope.

Section FlatProofs.
  Context {F : Field}.
  Add Field FFflat : (f_th F).
  Implicit Types (fl : Flat F) (w : Var -> F).

  Lemma wires_length w mk n : length (wires w mk n) = n.
  Proof. unfold wires. rewrite map_length, seq_length. reflexivity. Qed.
  Lemma nth_wires w mk n i : (i < n)%nat -> nth i (wires w mk n) 0 = w (mk i).
  Proof. intros. unfold wires. apply (nth_map_seq (fun i => w (mk i))). assumption. Qed.

  Lemma ip_upd (l ys : list F) i d : (i < length l)%nat ->
    ip (upd l i (fun x => x + d)) ys = ip l ys + d * nth i ys 0.
  Proof.
    revert i ys. induction l as [|x l IH]; intros i ys Hi; [cbn in Hi; lia|].
    destruct i as [|i]; destruct ys as [|y ys]; cbn [upd ip nth]; try ring.
    cbn in Hi. rewrite IH by lia. ring.
  Qed.

  (* vocabulary of specifications and proofs, no code modelled *)
  Definition vc_value w (ls : list (list F)) : F :=
    fsum (length ls) (fun j => ip (nth j ls []) (wires w (VectorCommit j) (length (nth j ls [])))).
  (* vocabulary of specifications and proofs, no code modelled *)
  Definition flat_value w fl : F :=
    ip (wL fl) (wires w MulL (length (wL fl))) + ip (wR fl) (wires w MulR (length (wR fl))) +
    ip (wO fl) (wires w MulO (length (wO fl))) + vc_value w (wVC fl) -
    ip (wV fl) (wires w Committed (length (wV fl))) - wc fl.

  (* vocabulary of specifications and proofs, no code modelled *)
  Definition shape fl (n m : nat) (dims : list nat) : Prop :=
    length (wL fl) = n /\ length (wR fl) = n /\ length (wO fl) = n /\ length (wV fl) = m /\
    map (@length _) (wVC fl) = dims.

  Lemma upd_map {A B} (f : A -> B) (l : list A) i x : nth_error l i <> None ->
    (forall y, nth_error l i = Some y -> f y = f x) -> map f (upd l i (fun _ => x)) = map f l.
  Proof.
    revert i. induction l as [|y l IH]; intros [|i] H Hy; cbn [upd map nth_error] in *; try congruence.
    - f_equal. symmetry. apply Hy. reflexivity.
    - f_equal. apply IH; assumption.
  Qed.

  Lemma vc_value_upd w ls j row i d : nth_error ls j = Some row -> (i < length row)%nat ->
    vc_value w (upd ls j (fun _ => upd row i (fun x => x + d))) = vc_value w ls + d * w (VectorCommit j i).
  Proof.
    intros Hj Hi. assert (Hjl : (j < length ls)%nat) by (apply nth_error_Some; congruence).
    unfold vc_value. rewrite upd_length.
    rewrite (fsum_ext _ _ (fun k => ip (nth k ls []) (wires w (VectorCommit k) (length (nth k ls []))) +
       (if Nat.eqb k j then d * w (VectorCommit j i) else 0))).
    - rewrite fsum_add. f_equal. rewrite (fsum_single _ _ j); [rewrite Nat.eqb_refl; reflexivity|assumption|].
      intros k _ Hk. destruct (Nat.eqb_spec k j); [congruence|reflexivity].
    - intros k Hk. destruct (Nat.eqb_spec k j) as [->|Hn].
      + rewrite nth_upd_eq by assumption. rewrite upd_length, ip_upd by assumption.
        rewrite (nth_error_nth _ _ _ Hj). rewrite nth_wires by assumption. reflexivity.
      + rewrite nth_upd_neq by congruence. ring.
  Qed.

  Lemma upd_opt_Some {A} (l l' : list A) i f : upd_opt l i f = Some l' -> (i < length l)%nat /\ l' = upd l i f.
  Proof. unfold upd_opt. destruct (Nat.ltb_spec i (length l)); [|discriminate]. intros H1; injection H1 as <-; auto. Qed.

  Lemma nth_map_length (ls : list (list F)) j : nth j (map (@length _) ls) 0%nat = length (nth j ls []).
  Proof. change 0%nat with (length (@nil F)). apply map_nth. Qed.

  Lemma flat_term_value wcb e fl v c fl' w n m dims : shape fl n m dims -> flat_term wcb e fl (v, c) = Some fl' ->
    shape fl' n m dims /\ var_in_range n m dims v /\
    (w One = 1 -> wcb = true -> flat_value w fl' = flat_value w fl + e * c * w v).
  Proof.
    intros (S1 & S2 & S3 & S4 & S5). unfold flat_term. destruct v as [j i|i|i|i|i|].
    - destruct (nth_error (wVC fl) j) as [row|] eqn:Ej; [|discriminate]. cbn [opt_bind].
      destruct (upd_opt row i _) as [row'|] eqn:Er; [|discriminate]. cbn [opt_bind].
      apply upd_opt_Some in Er. destruct Er as [Hi ->]. intros H; apply Some_inj in H; subst fl'.
      unfold shape, flat_value; cbn [wL wR wO wV wVC wc]. split; [|split].
      + repeat (split; [assumption|]). rewrite <- S5. apply upd_map; [congruence|].
        intros y Hy. rewrite upd_length. congruence.
      + cbn. rewrite <- S5, nth_map_length, (nth_error_nth _ _ _ Ej). assumption.
      + intros _ _. rewrite (vc_value_upd w _ _ row) by assumption. ring.
    - destruct (upd_opt (wV fl) i _) as [row'|] eqn:Er; [|discriminate]. cbn [opt_bind].
      apply upd_opt_Some in Er. destruct Er as [Hi ->]. intros H; apply Some_inj in H; subst fl'.
      unfold shape, flat_value; cbn [wL wR wO wV wVC wc]. rewrite upd_length.
      split; [auto 7|]. split; [cbn; lia|]. intros _ _.
      replace (upd (wV fl) i (fun x => x - e * c)) with (upd (wV fl) i (fun x => x + - (e * c)))
        by (clear; generalize (wV fl); intros l; revert i; induction l; intros [|i]; cbn; f_equal; auto; ring).
      rewrite ip_upd by assumption. rewrite nth_wires by assumption. ring.
    - destruct (upd_opt (wL fl) i _) as [row'|] eqn:Er; [|discriminate]. cbn [opt_bind].
      apply upd_opt_Some in Er. destruct Er as [Hi ->]. intros H; apply Some_inj in H; subst fl'.
      unfold shape, flat_value; cbn [wL wR wO wV wVC wc]. rewrite upd_length.
      split; [auto 7|]. split; [cbn; lia|]. intros _ _.
      rewrite ip_upd by assumption. rewrite nth_wires by assumption. ring.
    - destruct (upd_opt (wR fl) i _) as [row'|] eqn:Er; [|discriminate]. cbn [opt_bind].
      apply upd_opt_Some in Er. destruct Er as [Hi ->]. intros H; apply Some_inj in H; subst fl'.
      unfold shape, flat_value; cbn [wL wR wO wV wVC wc]. rewrite upd_length.
      split; [auto 7|]. split; [cbn; lia|]. intros _ _.
      rewrite ip_upd by assumption. rewrite nth_wires by assumption. ring.
    - destruct (upd_opt (wO fl) i _) as [row'|] eqn:Er; [|discriminate]. cbn [opt_bind].
      apply upd_opt_Some in Er. destruct Er as [Hi ->]. intros H; apply Some_inj in H; subst fl'.
      unfold shape, flat_value; cbn [wL wR wO wV wVC wc]. rewrite upd_length.
      split; [auto 7|]. split; [cbn; lia|]. intros _ _.
      rewrite ip_upd by assumption. rewrite nth_wires by assumption. ring.
    - intros H; apply Some_inj in H; subst fl'. split; [destruct wcb; repeat split; assumption|]. split; [exact I|].
      intros H1 ->. unfold flat_value; cbn [wL wR wO wV wVC wc]. rewrite H1. ring.
  Qed.

  Lemma flat_terms_value wcb e ts : forall fl fl' w n m dims, shape fl n m dims -> flat_terms wcb e ts fl = Some fl' ->
    shape fl' n m dims /\ Forall (fun t => var_in_range n m dims (fst t)) ts /\
    (w One = 1 -> wcb = true -> flat_value w fl' = flat_value w fl + e * lc_val w ts).
  Proof.
    induction ts as [|[v c] ts IH]; intros fl fl' w n m dims Hs H; cbn [flat_terms] in H.
    - injection H as <-. split; [assumption|]. split; [constructor|]. intros. cbn. ring.
    - destruct (flat_term wcb e fl (v, c)) as [f1|] eqn:E1; [|discriminate]. cbn [opt_bind] in H.
      destruct (flat_term_value wcb e fl v c f1 w n m dims Hs E1) as (S1 & R1 & V1).
      destruct (IH _ _ w n m dims S1 H) as (S2 & R2 & V2). split; [assumption|]. split; [constructor; assumption|].
      intros H1 Hb. rewrite V2, V1 by assumption. cbn [lc_val]. ring.
  Qed.

  Lemma flat_loop_value wcb z cs : forall e fl fl' w n m dims, shape fl n m dims -> flat_loop wcb z e cs fl = Some fl' ->
    shape fl' n m dims /\ Forall (Forall (fun t => var_in_range n m dims (fst t))) cs /\
    (w One = 1 -> wcb = true ->
     flat_value w fl' = flat_value w fl + fsum (length cs) (fun q => e * fpow z q * lc_val w (nth q cs []))).
  Proof.
    induction cs as [|lc cs IH]; intros e fl fl' w n m dims Hs H; cbn [flat_loop] in H.
    - injection H as <-. split; [assumption|]. split; [constructor|]. intros. cbn. ring.
    - destruct (flat_terms wcb e lc fl) as [f1|] eqn:E1; [|discriminate]. cbn [opt_bind] in H.
      destruct (flat_terms_value wcb e lc fl f1 w n m dims Hs E1) as (S1 & R1 & V1).
      destruct (IH _ _ _ w n m dims S1 H) as (S2 & R2 & V2). split; [assumption|]. split; [constructor; assumption|].
      intros H1 Hb. rewrite V2, V1 by assumption. cbn [length]. rewrite fsum_S_l. cbn [nth fpow].
      rewrite (fsum_ext (length cs) (fun q => e * z * fpow z q * lc_val w (nth q cs []))
        (fun i => e * (z * fpow z i) * lc_val w (nth i cs []))); [ring|].
      intros i _. ring.
  Qed.

  Lemma flat_init_shape n m dims : shape (flat_init n m dims) n m dims.
  Proof.
    unfold shape, flat_init; cbn. rewrite !zeros_length. repeat (split; [reflexivity|]).
    rewrite map_map. rewrite <- (map_id dims) at 2. apply map_ext. intros. apply zeros_length.
  Qed.
  Lemma flat_init_value w n m dims : flat_value w (flat_init n m dims) = 0.
  Proof.
    unfold flat_value, flat_init; cbn [wL wR wO wV wVC wc]. rewrite !ip_zeros_l.
    unfold vc_value. rewrite fsum_zero; [ring|]. intros j Hj. rewrite map_length in Hj.
    rewrite (nth_map_in _ _ _ 0%nat) by assumption. apply ip_zeros_l.
  Qed.

  (** Totality *)
  Lemma flat_term_total wcb e fl v c n m dims : shape fl n m dims -> var_in_range n m dims v ->
    exists fl', flat_term wcb e fl (v, c) = Some fl'.
  Proof.
    intros (S1 & S2 & S3 & S4 & S5) Hr. unfold flat_term, upd_opt. destruct v as [j i|i|i|i|i|]; cbn in Hr.
    - rewrite <- S5, nth_map_length in Hr. destruct (nth_error (wVC fl) j) as [row|] eqn:Ej.
      + cbn [opt_bind]. rewrite (nth_error_nth _ _ _ Ej) in Hr.
        destruct (Nat.ltb_spec i (length row)); [cbn; eauto|lia].
      + apply nth_error_None in Ej. rewrite nth_overflow in Hr by assumption. cbn in Hr. lia.
    - destruct (Nat.ltb_spec i (length (wV fl))); [cbn; eauto|lia].
    - destruct (Nat.ltb_spec i (length (wL fl))); [cbn; eauto|lia].
    - destruct (Nat.ltb_spec i (length (wR fl))); [cbn; eauto|lia].
    - destruct (Nat.ltb_spec i (length (wO fl))); [cbn; eauto|lia].
    - eauto.
  Qed.
  Lemma flat_terms_total wcb e ts : forall fl n m dims, shape fl n m dims ->
    Forall (fun t => var_in_range n m dims (fst t)) ts -> exists fl', flat_terms wcb e ts fl = Some fl'.
  Proof.
    induction ts as [|[v c] ts IH]; intros fl n m dims Hs H; cbn [flat_terms]; [eauto|].
    inversion H; subst. destruct (flat_term_total wcb e fl v c n m dims Hs) as [f1 E1]; [assumption|].
    rewrite E1. cbn [opt_bind]. eapply IH; [|eassumption]. eapply (flat_term_value wcb e fl v c f1 (fun _ => 0)); eassumption.
  Qed.
  Lemma flat_loop_total wcb z cs : forall e fl n m dims, shape fl n m dims ->
    Forall (Forall (fun t => var_in_range n m dims (fst t))) cs -> exists fl', flat_loop wcb z e cs fl = Some fl'.
  Proof.
    induction cs as [|lc cs IH]; intros e fl n m dims Hs H; cbn [flat_loop]; [eauto|].
    inversion H; subst. destruct (flat_terms_total wcb e lc fl n m dims Hs) as [f1 E1]; [assumption|].
    rewrite E1. cbn [opt_bind]. eapply IH; [|eassumption]. eapply (flat_terms_value wcb e lc fl f1 (fun _ => 0)); eassumption.
  Qed.

  (** Prover's and verifier's loops differ in [wc] only. *)
  Definition same_w fl fl' : Prop :=
    wL fl = wL fl' /\ wR fl = wR fl' /\ wO fl = wO fl' /\ wV fl = wV fl' /\ wVC fl = wVC fl'.
  Lemma flat_term_modes e fl g t fl' : same_w fl g -> flat_term false e fl t = Some fl' ->
    exists g', flat_term true e g t = Some g' /\ same_w fl' g'.
  Proof.
    intros (H1 & H2 & H3 & H4 & H5). destruct fl as [a b c d e1 f], g as [a' b' c' d' e1' f'].
    cbn [wL wR wO wV wVC] in *. subst a' b' c' d' e1'. destruct t as [v k]. unfold flat_term; cbn [wL wR wO wV wVC wc].
    destruct v as [j i|i|i|i|i|].
    - destruct (nth_error e1 j) as [row|]; [|discriminate]. cbn [opt_bind].
      destruct (upd_opt row i _) as [row'|]; [|discriminate]. cbn [opt_bind].
      intros H; apply Some_inj in H; subst. eexists; split; [reflexivity|repeat split].
    - destruct (upd_opt d i _) as [row'|]; [|discriminate]. cbn [opt_bind].
      intros H; apply Some_inj in H; subst. eexists; split; [reflexivity|repeat split].
    - destruct (upd_opt a i _) as [row'|]; [|discriminate]. cbn [opt_bind].
      intros H; apply Some_inj in H; subst. eexists; split; [reflexivity|repeat split].
    - destruct (upd_opt b i _) as [row'|]; [|discriminate]. cbn [opt_bind].
      intros H; apply Some_inj in H; subst. eexists; split; [reflexivity|repeat split].
    - destruct (upd_opt c i _) as [row'|]; [|discriminate]. cbn [opt_bind].
      intros H; apply Some_inj in H; subst. eexists; split; [reflexivity|repeat split].
    - intros H; apply Some_inj in H; subst. eexists; split; [reflexivity|repeat split].
  Qed.
  Lemma flat_terms_modes e ts : forall fl g fl', same_w fl g -> flat_terms false e ts fl = Some fl' ->
    exists g', flat_terms true e ts g = Some g' /\ same_w fl' g'.
  Proof.
    induction ts as [|t ts IH]; intros fl g fl' Hs H; cbn [flat_terms] in *.
    - injection H as <-. eauto.
    - destruct (flat_term false e fl t) as [f1|] eqn:E1; [|discriminate]. cbn [opt_bind] in H.
      destruct (flat_term_modes _ _ _ _ _ Hs E1) as (g1 & E2 & Hs1). rewrite E2. cbn [opt_bind]. eapply IH; eassumption.
  Qed.
  Lemma flat_loop_modes z cs : forall e fl g fl', same_w fl g -> flat_loop false z e cs fl = Some fl' ->
    exists g', flat_loop true z e cs g = Some g' /\ same_w fl' g'.
  Proof.
    induction cs as [|t ts IH]; intros e fl g fl' Hs H; cbn [flat_loop] in *.
    - injection H as <-. eauto.
    - destruct (flat_terms false e t fl) as [f1|] eqn:E1; [|discriminate]. cbn [opt_bind] in H.
      destruct (flat_terms_modes _ _ _ _ _ Hs E1) as (g1 & E2 & Hs1). rewrite E2. cbn [opt_bind]. eapply IH; eassumption.
  Qed.
End FlatProofs.

Section FlatTop.
  Context {F : Field} {V : VSpace F}.
  Add Field FFflat2 : (f_th F).
  Implicit Types (s : PState F) (t : VState V) (fl : Flat F).

  (* vocabulary of specifications and proofs, no code modelled *)
  Definition v_in_range t (v : Var) : Prop := var_in_range (v_num t) (length (v_V t)) (map snd (v_vec t)) v.

  Lemma v_flatten_total t z : Forall (Forall (fun x => v_in_range t (fst x))) (v_cs t) <-> exists fl, v_flatten t z = Some fl.
  Proof.
    unfold v_flatten. split.
    - intros H. eapply flat_loop_total; [apply flat_init_shape|exact H].
    - intros [fl H]. eapply (flat_loop_value true z _ z _ fl (fun _ => 0)); [apply flat_init_shape|exact H].
  Qed.
  Lemma v_flatten_shape t z fl : v_flatten t z = Some fl ->
    shape fl (v_num t) (length (v_V t)) (map snd (v_vec t)).
  Proof. intros H. eapply (flat_loop_value true z _ z _ fl (fun _ => 0)); [apply flat_init_shape|exact H]. Qed.
  Lemma v_flatten_value t z fl w : v_flatten t z = Some fl -> w One = 1 ->
    flat_value w fl = batched_constraints w z (v_cs t).
  Proof.
    intros H H1. destruct (flat_loop_value true z _ z _ fl w _ _ _ (flat_init_shape _ _ _) H) as (_ & _ & HV).
    rewrite HV by auto. rewrite flat_init_value. unfold batched_constraints.
    rewrite (fsum_ext _ _ (fun q => fpow z (S q) * lc_val w (nth q (v_cs t) []))); [ring|]. intros i _. cbn [fpow]. ring.
  Qed.
  Lemma p_flatten_shape s z fl : p_flatten s z = Some fl ->
    shape fl (length (p_aL s)) (length (p_v s)) (map (fun bv => length (snd bv)) (p_vec s)).
  Proof. intros H. eapply (flat_loop_value false z _ z _ fl (fun _ => 0)); [apply flat_init_shape|exact H]. Qed.

  Lemma p_v_flatten pc g s t z fl : agree pc g s t -> p_flatten s z = Some fl ->
    exists fl', v_flatten t z = Some fl' /\ same_w fl fl'.
  Proof.
    intros [A1 A2 A3 A4 A5 A6 A7 A8 A9] H. unfold p_flatten in H. unfold v_flatten.
    rewrite <- A2, <- A3, A7, zipw_length, <- A6, Nat.min_id, A8, map_map. cbn [snd].
    eapply flat_loop_modes; [|exact H]. repeat split.
  Qed.
  Lemma p_in_range s v : p_var s v <> None -> gates_inv s ->
    var_in_range (length (p_aL s)) (length (p_v s)) (map (fun bv => length (snd bv)) (p_vec s)) v.
  Proof.
    intros H (HR & HO & _). destruct v as [j i|i|i|i|i|]; cbn in *.
    - destruct (nth_error (p_vec s) j) as [[b l]|] eqn:E; [|congruence].
      apply nth_error_Some in H.
      rewrite (nth_map_in _ _ _ (0, [])) by (apply nth_error_Some; congruence).
      rewrite (nth_error_nth _ _ _ E). exact H.
    - apply nth_error_Some in H; lia.
    - apply nth_error_Some in H; lia.
    - apply nth_error_Some in H; lia.
    - apply nth_error_Some in H; lia.
    - exact I.
  Qed.
  Lemma p_flatten_total s z : gates_inv s -> Forall (Forall (fun x => p_var s (fst x) <> None)) (p_cs s) ->
    exists fl, p_flatten s z = Some fl.
  Proof.
    intros Hg H. unfold p_flatten. eapply flat_loop_total; [apply flat_init_shape|].
    revert H. apply Forall_impl. intros lc. apply Forall_impl. intros x Hx. apply p_in_range; assumption.
  Qed.

  (** Batching by powers is a polynomial in the challenge. *)
  Lemma batched_constraints_peval (w : Var -> F) z cs : batched_constraints w z cs = z * peval (map (lc_val w) cs) z.
  Proof.
    rewrite (peval_fsum _ _ (length cs)) by (rewrite map_length; lia). unfold batched_constraints.
    rewrite <- fsum_scale. apply fsum_ext. intros i Hi. cbn beta. rewrite (nth_map_in (lc_val w) cs i []) by assumption. cbn [fpow]. ring.
  Qed.
  Lemma batched_gates_peval (w : Var -> F) y n :
    batched_gates w y n = peval (map (fun i => w (MulL i) * w (MulR i) - w (MulO i)) (seq 0 n)) y.
  Proof.
    rewrite (peval_fsum _ _ n) by (rewrite map_length, seq_length; lia). unfold batched_gates.
    apply fsum_ext. intros i Hi. rewrite nth_map_seq by assumption. ring.
  Qed.
End FlatTop.
