(** * Proofs about the shuffle proof *)
From Verif Require Export Shuffle CSSpec SoundSpec.
From Verif Require Import CSProofs CSLogic UtilProofs SoundCount Lockstep R1CSMore.
From Coq Require Import Permutation.
Local Open Scope F_scope.

(** ** Equal products mean a permutation, unless the challenge is unlucky *)
Section Products.
  Context {F : Field}.
  Add Field FFshuf : (f_th F).

  (** the product of all [x - z] (specification vocabulary, no code modelled) *)
  Definition prod_at (z : F) (xs : list F) : F := fold_right (fun x acc => (x - z) * acc) 1 xs.

  Lemma prod_perm z xs ys : Permutation xs ys -> prod_at z xs = prod_at z ys.
  Proof. induction 1; cbn [prod_at fold_right]; try ring; [unfold prod_at in IHPermutation; rewrite IHPermutation; ring|congruence]. Qed.
  Lemma prod_zero z xs : prod_at z xs = 0 -> In z xs.
  Proof.
    induction xs as [|x xs IH]; cbn [prod_at fold_right In]; intros H; [exfalso; exact (F_1_neq_0 (f_th F) H)|].
    apply fmul_eq_0 in H as [H|H]; [left; apply fsub_0_iff; exact H|right; apply IH; exact H].
  Qed.

  Lemma peval_zip (f : F -> F -> F) k z : (forall a b, f a b = a + k * b) -> forall cs ds, length cs = length ds ->
    peval (zipw f cs ds) z = peval cs z + k * peval ds z.
  Proof.
    intros Hf. induction cs as [|c cs IH]; intros [|d ds] H; try discriminate; cbn [zipw peval]; [ring|].
    rewrite IH by (injection H as H; exact H). rewrite Hf. ring.
  Qed.
  Lemma peval_scale (k z : F) : forall cs, peval (map (fun c => k * c) cs) z = k * peval cs z.
  Proof. induction cs as [|c cs IH]; cbn [map peval]; [ring|]. rewrite IH. ring. Qed.
  Lemma peval_zeros (z : F) : forall cs, Forall (fun c => c = 0) cs -> peval cs z = 0.
  Proof. induction 1 as [|c cs -> _ IH]; cbn [peval]; [reflexivity|]. rewrite IH. ring. Qed.
  (** the product as a polynomial in [z] *)
  Lemma peval_prod (xs : list F) : exists cs, length cs = S (length xs) /\ forall z, peval cs z = prod_at z xs.
  Proof.
    induction xs as [|x xs (cs & Hl & Hc)]; [exists [1]; split; [reflexivity|]; intros z; cbn; ring|].
    exists (zipw (fun a b => a - b) (map (fun c => x * c) cs ++ [0]) (0 :: cs)).
    assert (Hlen : length (map (fun c => x * c) cs ++ [0]) = length (0 :: cs)) by (rewrite app_length, map_length; cbn [length]; lia).
    split; [rewrite zipw_length, Hlen, Nat.min_id; cbn [length]; rewrite Hl; reflexivity|].
    intros z. rewrite (peval_zip _ (- (1))) by (intros; ring || exact Hlen). 
    rewrite peval_app, peval_scale, Hc. cbn [peval]. rewrite Hc. unfold prod_at. cbn [fold_right]. ring.
  Qed.

  Lemma In_decF (x : F) l : {In x l} + {~ In x l}.
  Proof. apply in_dec. intros a b. destruct (feqb_spec F a b); [left|right]; assumption. Qed.

  (** two lists that are not permutations of each other have few common values of the product *)
  Lemma few_collisions : forall xs ys, length xs = length ys -> ~ Permutation xs ys ->
    at_most (length xs) (fun z => prod_at z xs = prod_at z ys).
  Proof.
    induction xs as [|x xs IH]; intros ys Hl Hp.
    { destruct ys; [|discriminate]. exfalso. apply Hp. constructor. }
    destruct (In_decF x ys) as [Hin|Hni].
    - apply in_split in Hin as (l1 & l2 & ->).
      assert (Hl' : length xs = length (l1 ++ l2)) by (rewrite app_length in *; cbn [length] in Hl; lia).
      assert (Hp' : ~ Permutation xs (l1 ++ l2)) by (intros H; apply Hp; apply Permutation_cons_app; exact H).
      cbn [length]. eapply at_most_weaken; [reflexivity| |apply (at_most_or_eq (length xs) x)].
      2:{ eapply at_most_weaken; [reflexivity| |exact (IH _ Hl' Hp')]. intros z [_ H]. exact H. }
      intros z Hz. destruct (feqb_spec F z x) as [|Hne]; [left; assumption|right].
      rewrite <- (prod_perm z _ _ (Permutation_middle l1 l2 x)) in Hz. cbn [prod_at fold_right] in Hz.
      apply (fmul_cancel_l (x - z)); [|exact Hz]. intros H. apply Hne. symmetry. apply fsub_0_iff. exact H.
    - destruct (peval_prod (x :: xs)) as (cs & Lc & Hc). destruct (peval_prod ys) as (ds & Ld & Hd).
      assert (Hlen : length cs = length ds) by lia.
      eapply at_most_weaken; [reflexivity| |apply (at_most_roots (length (x :: xs)) (zipw (fun a b => a - b) cs ds))].
      2:{ rewrite zipw_length. lia. }
      assert (He : forall z, peval (zipw (fun a b => a - b) cs ds) z = prod_at z (x :: xs) - prod_at z ys).
      { intros z. rewrite (peval_zip _ (- (1))) by (intros; ring || exact Hlen). rewrite Hc, Hd. ring. }
      intros z Hz. split; [|rewrite He; apply fsub_0_iff; exact Hz].
      destruct (Exists_dec (fun c => c <> 0) (zipw (fun a b => a - b) cs ds)) as [H|H]; [|exact H|exfalso].
      { intros c. destruct (feqb_spec F c 0); [right; intros H; apply H; assumption|left; assumption]. }
      apply Hni. apply prod_zero. 
      assert (Hz0 : peval (zipw (fun a b => a - b) cs ds) x = 0).
      { apply peval_zeros. apply Forall_forall. intros c Hin. destruct (feqb_spec F c 0) as [|Hne]; [assumption|].
        exfalso. apply H. apply Exists_exists. exists c. split; assumption. }
      rewrite He in Hz0. apply (proj1 (fsub_0_iff _ _)) in Hz0. rewrite <- Hz0. change ((x - x) * prod_at x xs = 0). ring.
  Qed.

  Lemma perm_decF (xs : list F) : forall ys, {Permutation xs ys} + {~ Permutation xs ys}.
  Proof.
    induction xs as [|x xs IH]; intros ys.
    - destruct ys; [left; constructor|right]. intros H. apply Permutation_nil in H. discriminate.
    - destruct (In_decF x ys) as [Hin|Hni].
      2:{ right. intros H. apply Hni. apply (Permutation_in _ H). left. reflexivity. }
      assert (Hs : {r | ys = fst r ++ x :: snd r}).
      { clear IH. induction ys as [|y ys IHy]; [exfalso; exact Hin|]. destruct (feqb_spec F x y) as [->|Hne].
        - exists ([], ys). reflexivity.
        - destruct IHy as [[a b] Hr]; [destruct Hin as [Hin|Hin]; [exfalso; auto|exact Hin]|]. exists (y :: a, b). cbn in *. rewrite Hr. reflexivity. }
      destruct Hs as [[a b] ->]. cbn [fst snd]. destruct (IH (a ++ b)) as [H|H].
      + left. apply Permutation_cons_app. exact H.
      + right. intros Hp. apply H. apply (Permutation_cons_app_inv _ _ Hp).
  Qed.
End Products.

(** ** The gadget *)
Section Gadget.
  Context {F : Field} {V : VSpace F}.
  Add Field FFshufg : (f_th F).
  Variable E : TrEnv V.

  Lemma lc_val_minus (w : Var -> F) x z : w One = 1 -> lc_val w (lc_sub (lc_var x) (lc_const z)) = w x - z.
  Proof. intros H. cbn. rewrite H. ring. Qed.

  Lemma lc_val_diff (w : Var -> F) x y : w x = w y -> lc_val w (lc_sub (lc_var x) (lc_var y)) = 0.
  Proof. intros H. cbn. rewrite H. ring. Qed.

  Lemma lc_val_diff_inv (w : Var -> F) x y : lc_val w (lc_sub (lc_var x) (lc_var y)) = 0 -> w x = w y.
  Proof. intros H. apply fsub_0_iff. rewrite <- H. cbn. ring. Qed.

  Lemma wps_fold (w : Var -> F) z : w One = 1 -> forall xs prev, wps w (shuffle_fold z prev xs) (fun o => w o = w prev * prod_at z (map w xs)).
  Proof.
    intros H1. induction xs as [|x xs IH]; intros prev; cbn [shuffle_fold wps map]; [unfold prod_at; cbn; ring|].
    intros lv rv ov Hl Hr Ho. eapply wps_mono; [|apply IH]. intros o ->. rewrite Ho, Hl, Hr, lc_val_minus by exact H1.
    change (prod_at z (w x :: map w xs)) with ((w x - z) * prod_at z (map w xs)). cbn. ring.
  Qed.
  Lemma wps_product (w : Var -> F) z xs : w One = 1 -> wps w (shuffle_product z xs) (fun o => w o = prod_at z (map w xs)).
  Proof.
    intros H1. unfold shuffle_product. destruct (rev xs) as [|a [|b r]] eqn:Er; try exact I.
    cbn [wps]. intros lv rv ov Hl Hr Ho. eapply wps_mono; [|apply wps_fold; exact H1]. intros o ->.
    rewrite Ho, Hl, Hr, !lc_val_minus by exact H1.
    rewrite (prod_perm z (map w xs) (map w (rev xs))) by (apply Permutation_map, Permutation_rev).
    rewrite Er. cbn [map]. change (prod_at z (w a :: w b :: map w r)) with ((w a - z) * ((w b - z) * prod_at z (map w r))). ring.
  Qed.

  Lemma wpc_fold (w : Var -> F) z : w One = 1 -> forall xs (ok : Var -> Prop) prev, ok One -> ok prev -> Forall ok xs ->
    wpc w ok (shuffle_fold z prev xs) (fun ok' o => ok_sub ok ok' /\ ok' o /\ w o = w prev * prod_at z (map w xs)).
  Proof.
    intros H1. induction xs as [|x xs IH]; intros ok prev Ho Hp Hx; cbn [shuffle_fold wpc map].
    - split; [apply ok_sub_refl|]. split; [exact Hp|]. unfold prod_at; cbn; ring.
    - inversion Hx as [|? ? Hx1 Hx2]; subst. split; [apply lc_ok_var; exact Hp|].
      split; [apply lc_ok_sub_lc; [apply lc_ok_var; exact Hx1|apply lc_ok_const; exact Ho]|].
      intros lv rv ov Hl Hr Hov. set (ok1 := ok_add (ok_add (ok_add ok lv) rv) ov).
      assert (Hs : ok_sub ok ok1) by (intros v Hv; left; left; left; exact Hv).
      eapply wpc_mono; [|apply (IH ok1 ov); [apply Hs; exact Ho|right; reflexivity|eapply Forall_impl; [|exact Hx2]; exact Hs]].
      intros ok' o (Hs' & Ho' & ->). split; [eapply ok_sub_trans; eassumption|]. split; [exact Ho'|].
      rewrite Hov, lc_val_minus by exact H1.
      change (prod_at z (w x :: map w xs)) with ((w x - z) * prod_at z (map w xs)). cbn. ring.
  Qed.
  Lemma wpc_product (w : Var -> F) z xs (ok : Var -> Prop) : w One = 1 -> ok One -> Forall ok xs -> (2 <= length xs)%nat ->
    wpc w ok (shuffle_product z xs) (fun ok' o => ok_sub ok ok' /\ ok' o /\ w o = prod_at z (map w xs)).
  Proof.
    intros H1 Ho Hx Hl2. unfold shuffle_product. rewrite <- rev_length in Hl2.
    rewrite (prod_perm z (map w xs) (map w (rev xs))) by (apply Permutation_map, Permutation_rev).
    assert (Hx' : Forall ok (rev xs)) by (apply Forall_rev; exact Hx).
    destruct (rev xs) as [|a [|b r]] eqn:Er; [cbn in Hl2; lia|cbn in Hl2; lia|].
    inversion Hx' as [|? ? Ha Hx1]; subst. inversion Hx1 as [|? ? Hb Hx2]; subst.
    cbn [wpc]. split; [apply lc_ok_sub_lc; [apply lc_ok_var; exact Ha|apply lc_ok_const; exact Ho]|].
    split; [apply lc_ok_sub_lc; [apply lc_ok_var; exact Hb|apply lc_ok_const; exact Ho]|].
    intros lv rv ov Hl Hr Hov. set (ok1 := ok_add (ok_add (ok_add ok lv) rv) ov).
    assert (Hs : ok_sub ok ok1) by (intros v Hv; left; left; left; exact Hv).
    eapply wpc_mono; [|apply (wpc_fold w z H1 r ok1 ov); [apply Hs; exact Ho|right; reflexivity|eapply Forall_impl; [|exact Hx2]; exact Hs]].
    intros ok' o (Hs' & Ho' & ->). split; [eapply ok_sub_trans; eassumption|]. split; [exact Ho'|].
    rewrite Hov, !lc_val_minus by exact H1. cbn [map].
    change (prod_at z (w a :: w b :: map w r)) with ((w a - z) * ((w b - z) * prod_at z (map w r))). ring.
  Qed.

  (** the part of the callback after the challenge (bulletproofs/tests/r1cs.rs 40-61) *)
  Definition shuffle_body (z : F) (x y : list Var) : Prog F (Res unit) :=
    pbind (shuffle_product z x) (fun ox => pbind (shuffle_product z y) (fun oy =>
      PConstrain (lc_sub (lc_var ox) (lc_var oy)) (PRet (Ok tt)))).
  Lemma wps_body (w : Var -> F) z x y : w One = 1 -> wps w (shuffle_body z x y) (fun _ => prod_at z (map w x) = prod_at z (map w y)).
  Proof.
    intros H1. apply wps_bind. eapply wps_mono; [|apply wps_product; exact H1]. intros ox Hx.
    apply wps_bind. eapply wps_mono; [|apply wps_product; exact H1]. intros oy Hy. cbn [wps].
    intros H. rewrite <- Hx, <- Hy. apply fsub_0_iff. rewrite <- H. cbn. ring.
  Qed.
  Lemma wpc_body (w : Var -> F) z x y (ok : Var -> Prop) : w One = 1 -> ok One -> Forall ok x -> Forall ok y -> (2 <= length x)%nat -> (2 <= length y)%nat ->
    Permutation (map w x) (map w y) -> wpc w ok (shuffle_body z x y) (fun _ r => r = Ok tt).
  Proof.
    intros H1 Ho Hx Hy Lx Ly Hp. apply wpc_bind. eapply wpc_mono; [|apply wpc_product; assumption]. intros ok1 ox (Hs1 & Hox & Ex).
    apply wpc_bind. eapply wpc_mono; [|apply wpc_product; [exact H1|apply Hs1; exact Ho|eapply Forall_impl; [|exact Hy]; exact Hs1|exact Ly]].
    intros ok2 oy (Hs2 & Hoy & Ey). cbn [wpc]. split; [apply lc_ok_sub_lc; apply lc_ok_var; [apply Hs2; exact Hox|exact Hoy]|].
    split; [|reflexivity]. transitivity (w ox - w oy); [cbn; ring|]. rewrite Ex, Ey, (prod_perm z _ _ Hp). ring.
  Qed.

  Lemma prun_pbind {A B} (p : Prog F A) (f : A -> Prog F B) s : prun E (pbind p f) s = match prun E p s with Some (s', a) => prun E (f a) s' | None => None end.
  Proof.
    revert s. induction p as [A a0|A|A l r k IH|A x k IH|A x k IH|A c k IH|A lb m k IH|A k IH|A lb k IH|A cb _ k IH]; intros s; cbn [pbind prun]; auto.
    - destruct (p_multiply s l r) as [[s' v]|]; auto.
    - destruct (p_allocate s x) as [[s' v]|]; auto.
    - destruct (p_allocate_multiplier s x) as [s' v]; auto.
    - destruct (challenge_scalar E (p_tr s) lb) as [[c tr]|]; auto.
  Qed.
  (** number of multipliers *)
  Lemma fold_len z : forall xs prev (s s' : PState F) o, prun E (shuffle_fold z prev xs) s = Some (s', o) ->
    length (p_aL s') = (length (p_aL s) + length xs)%nat.
  Proof.
    induction xs as [|x xs IH]; intros prev s s' o H; cbn [shuffle_fold prun] in H; [injection H as <- _; cbn; lia|].
    unfold p_multiply in H. destruct (p_eval s _) as [l|] in H; [|discriminate]. cbn [opt_bind] in H.
    destruct (p_eval s _) as [r|] in H; [|discriminate]. cbn [opt_bind] in H. apply IH in H. rewrite H. cbn. rewrite app_length. cbn. lia.
  Qed.
  Lemma product_len z xs (s s' : PState F) o : prun E (shuffle_product z xs) s = Some (s', o) ->
    length (p_aL s') = (length (p_aL s) + (length xs - 1))%nat.
  Proof.
    unfold shuffle_product. intros H. rewrite <- (rev_length xs). destruct (rev xs) as [|a [|b r]]; try discriminate. cbn [prun] in H.
    unfold p_multiply in H. destruct (p_eval s _) as [l|] in H; [|discriminate]. cbn [opt_bind] in H.
    destruct (p_eval s _) as [rr|] in H; [|discriminate]. cbn [opt_bind] in H. apply fold_len in H. rewrite H. cbn. rewrite app_length. cbn. lia.
  Qed.
  Lemma body_len z x y (s s' : PState F) a : prun E (shuffle_body z x y) s = Some (s', a) ->
    length (p_aL s') = (length (p_aL s) + (length x - 1) + (length y - 1))%nat.
  Proof.
    unfold shuffle_body. rewrite prun_pbind. destruct (prun E (shuffle_product z x) s) as [[s1 ox]|] eqn:E1; [|discriminate].
    rewrite prun_pbind. destruct (prun E (shuffle_product z y) s1) as [[s2 oy]|] eqn:E2; [|discriminate]. cbn [prun]. intros H.
    apply Some_inj in H. injection H as <- _. apply product_len in E1. apply product_len in E2. cbn. lia.
  Qed.
End Gadget.

(** ** Prover and verifier *)
Section Sessions.
  Context {F : Field} {V : VSpace F}.
  Variable E : TrEnv V.
  Variable pc : PedersenGens V.

  Lemma p_commits_spec : forall l (s : PState F), exists tr,
    p_commits E pc s l =
      (mkP tr (p_cs s) (p_aL s) (p_aR s) (p_aO s) (p_v s ++ map fst l) (p_vb s ++ map snd l) (p_vec s) (p_def s) (p_pend s),
       (map (fun p => pc_commit pc (fst p) (snd p)) l, map Committed (seq (length (p_v s)) (length l)))).
  Proof.
    induction l as [|[v b] l IH]; intros s; cbn [p_commits].
    - exists (p_tr s). cbn. rewrite !app_nil_r. destruct s. reflexivity.
    - unfold p_commit at 1. match goal with |- context [p_commits E pc ?s' l] => destruct (IH s') as [tr Hr] end.
      rewrite Hr. exists tr. cbn [p_v p_vb p_cs p_aL p_aR p_aO p_vec p_def p_pend map fst snd length seq].
      rewrite <- !app_assoc, app_length. cbn [app length]. rewrite Nat.add_1_r. reflexivity.
  Qed.
  Lemma v_commits_spec : forall l (t : VState V), exists tr,
    v_commits E t l = (mkV tr (v_cs t) (v_vec t) (v_num t) (v_V t ++ l) (v_def t) (v_pend t), map Committed (seq (length (v_V t)) (length l))).
  Proof.
    induction l as [|c l IH]; intros t; cbn [v_commits].
    - exists (v_tr t). cbn. rewrite app_nil_r. destruct t. reflexivity.
    - unfold v_commit at 1. match goal with |- context [v_commits E ?s' l] => destruct (IH s') as [tr Hr] end.
      rewrite Hr. exists tr. cbn [v_cs v_vec v_num v_V v_def v_pend length seq map].
      rewrite <- app_assoc, app_length. cbn [app length]. rewrite Nat.add_1_r. reflexivity.
  Qed.
  Lemma session_commits g tr : forall l (s : PState F) (t : VState V), session E pc g tr s t -> length (v_V t) = length (p_v s) ->
    exists s' t', p_commits E pc s l = (s', (map (fun p => pc_commit pc (fst p) (snd p)) l, map Committed (seq (length (p_v s)) (length l)))) /\
      v_commits E t (map (fun p => pc_commit pc (fst p) (snd p)) l) = (t', map Committed (seq (length (p_v s)) (length l))) /\
      session E pc g tr s' t' /\ length (v_V t') = length (p_v s').
  Proof.
    induction l as [|[v b] l IH]; intros s t Hs Hl; cbn [p_commits map v_commits fst snd].
    - exists s, t. repeat split; assumption.
    - unfold p_commit, v_commit. match goal with |- context [p_commits E pc ?s' l] => set (s1 := s') end.
      match goal with |- context [v_commits E ?t' (map _ l)] => set (t1 := t') end.
      destruct (IH s1 t1) as (s2 & t2 & H1 & H2 & H3 & H4).
      + assert (Hc : p_commit E pc s v b = (s1, (pc_commit pc v b, Committed (length (p_v s))))) by reflexivity.
        exact (ses_commit E pc g tr s t v b _ _ _ Hs Hc).
      + cbn. rewrite !app_length. cbn. lia.
      + rewrite H1, H2. exists s2, t2. rewrite Hl. cbn [s1 p_v length seq map]. rewrite app_length. cbn [length]. rewrite Nat.add_1_r.
        repeat split; assumption.
  Qed.

  Lemma same_fold z : forall xs prev, same_gadget (shuffle_fold (F := F) z prev xs) (shuffle_fold z prev xs).
  Proof. induction xs as [|x xs IH]; intros prev; cbn [shuffle_fold]; constructor. intros [[l r] o]. apply IH. Qed.
  Lemma same_product z xs : same_gadget (shuffle_product (F := F) z xs) (shuffle_product z xs).
  Proof. unfold shuffle_product. destruct (rev xs) as [|a [|b r]]; constructor. intros [[l r'] o]. apply same_fold. Qed.
  Lemma same_callback x y : same_gadget (shuffle_callback (F := F) x y) (shuffle_callback x y).
  Proof.
    constructor. intros z. apply same_gadget_bind; [apply same_product|]. intros ox. apply same_gadget_bind; [apply same_product|].
    intros oy. repeat constructor.
  Qed.
  Lemma same_shuffle x y : same_gadget (shuffle_gadget (F := F) x y) (shuffle_gadget x y).
  Proof.
    unfold shuffle_gadget. destruct (length x =? length y)%nat; [|constructor].
    destruct x as [|x0 [|x1 x]], y as [|y0 [|y1 y]]; repeat (constructor; [apply same_callback|constructor] || constructor).
  Qed.
End Sessions.

Section Phase2.
  Context {F : Field} {V : VSpace F}.
  Variable E : TrEnv V.

  Lemma map_committed (s : PState F) a k : (a + k <= length (p_v s))%nat -> map (p_asg s) (map Committed (seq a k)) = firstn k (skipn a (p_v s)).
  Proof.
    intros H. rewrite map_map. revert a H. induction k as [|k IH]; intros a H; [reflexivity|]. cbn [seq map].
    rewrite IH by lia. unfold p_asg. cbn [p_var].
    destruct (nth_error (p_v s) a) as [x|] eqn:Ex; [|apply nth_error_None in Ex; lia].
    apply nth_error_split in Ex as (l1 & l2 & Hv & <-). rewrite Hv.
    replace (skipn (length l1) (l1 ++ x :: l2)) with (x :: l2) by (rewrite skipn_app, skipn_all, Nat.sub_diag; reflexivity).
    replace (skipn (S (length l1)) (l1 ++ x :: l2)) with l2.
    - reflexivity.
    - rewrite skipn_app, skipn_all2 by lia. replace (S (length l1) - length l1)%nat with 1%nat by lia. reflexivity.
  Qed.

  (** the prover after the gadget (bulletproofs/tests/r1cs.rs 83-99); no further code modelled *)
  Definition shuffle_state tr (v vb : list F) (x y : list Var) : PState F := mkP tr [] [] [] [] v vb [] [shuffle_callback x y] None.

  Lemma phase2_run tr0 tr (v1 v2 vb : list F) : good_challenges E -> (2 <= length v1)%nat -> Permutation v1 v2 ->
    let x := map Committed (seq 0 (length v1)) in
    let y := map Committed (seq (length v1) (length v2)) in
    let s := shuffle_state tr0 (v1 ++ v2) vb x y in
    exists s2, p_create_randomized E (p_set_tr s tr) = Some (Ok s2) /\ honest s2 /\ p_vec s2 = [] /\
      length (p_aL s2) = (2 * (length v1 - 1))%nat.
  Proof.
    intros Hch H2 Hp x y s. assert (Hl : length v2 = length v1) by (symmetry; apply Permutation_length; exact Hp).
    unfold p_create_randomized. cbn [s shuffle_state p_set_tr p_set_pend p_def p_tr p_set_def p_run_all shuffle_callback prun].
    match goal with |- context [challenge_scalar E ?t ?l] => destruct (Hch t l) as (c & t' & Hc & _) end.
    rewrite Hc. set (s1 := p_set_tr _ t').
    change (pbind (shuffle_product c x) _) with (shuffle_body c x y).
    assert (Hh : honest s1).
    { split; [|constructor]. split; [reflexivity|]. split; [reflexivity|]. split; [intros i; cbn; destruct i; cbn; symmetry; apply fmul_0_l|]. discriminate. }
    assert (Hi : forall a k, (a + k <= length v1 + length v2)%nat -> Forall (issued s1) (map Committed (seq a k))).
    { intros a k Hk. apply Forall_map, Forall_forall. intros i Hin. apply in_seq in Hin. split; [|discriminate].
      cbn. intros Hn. apply nth_error_None in Hn. rewrite app_length in Hn. lia. }
    assert (Hx : map (p_asg s1) x = v1).
    { unfold x. rewrite map_committed; change (p_v s1) with (v1 ++ v2); [|rewrite app_length; lia].
      change (skipn 0 (v1 ++ v2)) with (v1 ++ v2). rewrite firstn_app, firstn_all, Nat.sub_diag, firstn_O. apply app_nil_r. }
    assert (Hy : map (p_asg s1) y = v2).
    { unfold y. rewrite map_committed; change (p_v s1) with (v1 ++ v2); [|rewrite app_length; lia].
      rewrite skipn_app, skipn_all, Nat.sub_diag. apply firstn_all. }
    destruct (wpc_sound (n := 0) E (shuffle_body c x y) (fun _ _ r => r = Ok tt) s1 (issued s1) Hh (ok_sub_refl _)) as (s2 & a & ok' & Hr & Hh2 & _ & Hf & _ & Ha).
    { intros w Hw. assert (Hm : forall l, Forall (issued s1) l -> map w l = map (p_asg s1) l).
      { intros l Hl'. apply map_ext_in. intros u Hu. apply Hw. exact (proj1 (Forall_forall _ _) Hl' u Hu). }
      apply wpc_body.
      - apply (agrees_one _ _ Hw).
      - split; discriminate.
      - apply Hi. lia.
      - apply Hi. lia.
      - unfold x. rewrite map_length, seq_length. exact H2.
      - unfold y. rewrite map_length, seq_length. lia.
      - rewrite (Hm x), (Hm y) by (apply Hi; lia). rewrite Hx, Hy. exact Hp. }
    rewrite Hr, (Ha _ (agrees_self _)). exists s2. split; [reflexivity|]. split; [exact Hh2|].
    split; [destruct Hf as (_ & _ & -> & _); reflexivity|].
    rewrite (body_len _ _ _ _ _ _ _ Hr). unfold x, y. rewrite !map_length, !seq_length. cbn. lia.
  Qed.
End Phase2.
