(** * C86: membership in a committed vector from end to end *)
From Verif Require Import SelectClient ShuffleProofs CSProofs CSLogic CSMore UtilProofs GadgetProofs FlatProofs R1CSSpec R1CSProofs R1CSMain R1CSVerif R1CSMore R1CSTotal Lockstep SoundSpec SoundCount Forge ForgeProofs PropsGadgets PropsR1CS PropsSound PropsClients PropsVecClients PropsShuffle Toy.
Local Open Scope F_scope.

Section Sel.
  Context {F : Field} {V : VSpace F} (E : TrEnv V) (pc : PedersenGens V) (g : BPGens V).
  Add Field FFsel : (f_th F).

  (** [select_loop] without its last constraint (no code modelled: for the proofs) *)
  Fixpoint sel_prod (x product : LC F) (xs : list (LC F)) : Prog F (LC F) :=
    match xs with
    | [] => PRet product
    | xi :: xs' => PMul product (lc_sub xi x) (fun '(_, _, o) => sel_prod x (lc_var o) xs')
    end.
  Lemma sel_split x xs : forall p (s : PState F), prun E (select_loop x p xs) s = do (s', q) <- prun E (sel_prod x p xs) s; Some (p_constrain s' q, tt).
  Proof.
    induction xs as [|xi xs IH]; intros p s; cbn [select_loop sel_prod prun]; [reflexivity|]. destruct (p_multiply s p (lc_sub xi x)) as [[s1 [[l r] o]]|]; [|reflexivity]. apply IH.
  Qed.
  Lemma sel_snoc x xl xs : forall p (s : PState F), prun E (sel_prod x p (xs ++ [xl])) s =
    do (s', q) <- prun E (sel_prod x p xs) s; do (s3, v) <- p_multiply s' q (lc_sub xl x); Some (s3, lc_var (snd v)).
  Proof.
    induction xs as [|xi xs IH]; intros p s; cbn [app sel_prod prun].
    - cbn [opt_bind]. destruct (p_multiply s p (lc_sub xl x)) as [[s1 [[l r] o]]|]; reflexivity.
    - destruct (p_multiply s p (lc_sub xi x)) as [[s1 [[l r] o]]|]; [|reflexivity]. apply IH.
  Qed.
  Lemma sel_wpc (w : Var -> F) x xs : forall ok p, lc_ok ok x -> lc_ok ok p -> Forall (lc_ok ok) xs ->
    wpc w ok (sel_prod x p xs) (fun ok' q => lc_ok ok' q /\ lc_val w q = lc_val w p * prod_at (lc_val w x) (map (lc_val w) xs)).
  Proof.
    induction xs as [|xi xs IH]; intros ok p Hx Hp Hxs; cbn [sel_prod wpc].
    - split; [exact Hp|]. cbn. ring.
    - apply Forall_cons_iff in Hxs as [Hxi Hxs]. split; [exact Hp|]. split; [apply lc_ok_sub_lc; assumption|].
      intros lv rv ov Hl Hr Ho. set (ok' := ok_add (ok_add (ok_add ok lv) rv) ov).
      assert (Hs : ok_sub ok ok') by (do 3 apply ok_sub_add; apply ok_sub_refl).
      eapply wpc_mono; [|apply (IH ok' (lc_var ov))].
      + intros ok2 q [Hq Hv]. split; [exact Hq|]. rewrite Hv, lc_val_var, Ho, lc_val_sub. cbn [map prod_at fold_right]. unfold prod_at. ring.
      + eapply lc_ok_sub; eassumption.
      + apply lc_ok_var. apply ok_add_in.
      + revert Hxs. apply Forall_impl. intros lc. apply lc_ok_sub. exact Hs.
  Qed.
  Lemma sel_len x xs : forall p (s s' : PState F) q, prun E (sel_prod x p xs) s = Some (s', q) -> length (p_aL s') = (length (p_aL s) + length xs)%nat.
  Proof.
    induction xs as [|xi xs IH]; intros p s s' q H; cbn [sel_prod prun] in H; [injection H as <- _; cbn; lia|].
    unfold p_multiply in H. destruct (p_eval s _) as [l|] in H; [|discriminate]. cbn [opt_bind] in H.
    destruct (p_eval s _) as [r|] in H; [|discriminate]. cbn [opt_bind] in H. apply IH in H. rewrite H. cbn. rewrite app_length. cbn. lia.
  Qed.
  Lemma sel_def x xs : forall p (t t' : VState V), vrun E (select_loop x p xs) t = Some (t', tt) -> v_def t' = v_def t.
  Proof.
    induction xs as [|xi xs IH]; intros p t t' H; cbn [select_loop vrun] in H.
    - apply Some_inj in H. injection H as <-. reflexivity.
    - unfold v_multiply in H. apply IH in H. rewrite H. reflexivity.
  Qed.
  Lemma prod_in z (xs : list F) : In z xs -> prod_at z xs = 0.
  Proof.
    induction xs as [|y xs IH]; intros H; [destruct H|]. cbn [prod_at fold_right]. fold (prod_at z xs). destruct H as [->|H]; [ring|]. rewrite (IH H). ring.
  Qed.
  Lemma asg_nth (l : list F) i : match nth_error l i with Some x => x | None => 0 end = nth i l 0.
  Proof. revert i. induction l as [|a l IH]; intros [|i]; cbn; auto. Qed.

  Lemma select_start xs h x hx : gens_wf g -> (length xs <= gens_capacity g)%nat ->
    exists com s0 t0, opens_vector pc g xs h com /\ session E pc g (test_transcript "select") s0 t0 /\
    let cx := pc_commit pc x hx in
    (exists tr, s0 = mkP tr [] [] [] [] [x] [hx] [(h, xs)] [] None) /\ (exists tr, t0 = mkV tr [] [(com, length xs)] 0 [cx] [] None) /\
    select_commit E pc g xs h x hx = Some (s0, (com, map (VectorCommit 0) (seq 0 (length xs))), (cx, Committed 0)) /\
    select_statement E (length xs) com cx = do (t, _) <- vrun E (select (lc_var (Committed 0)) (map lc_var (map (VectorCommit 0) (seq 0 (length xs))))) t0; Some t.
  Proof.
    intros (Gr & Hr & HG & HH & LG & LH) Hl. set (tr := test_transcript "select").
    assert (Hsh : share_G g 0 (length xs) = Some (firstn (length xs) Gr)) by (unfold share_G; rewrite HG; reflexivity).
    assert (LGs : length (firstn (length xs) Gr) = length xs) by (rewrite firstn_length; lia).
    set (com := msm (h :: xs) (pcB_blinding pc :: firstn (length xs) Gr)).
    assert (Hc : p_commit_vec E pc g (p_new tr) xs h = Some (mkP (append_point E (p_tr (p_new (F := F) tr)) "V" com) [] [] [] [] [] [] [(h, xs)] [] None, (com, map (VectorCommit 0) (seq 0 (length xs))))).
    { unfold p_commit_vec. rewrite Hsh. cbn [opt_bind]. unfold guard. cbn [length]. rewrite LGs, Nat.eqb_refl. reflexivity. }
    pose proof (ses_commit_vec _ _ _ _ _ _ _ _ _ _ _ (ses_new E pc g tr) Hc) as S1.
    pose proof (ses_commit E pc g tr _ _ x hx _ _ _ S1 eq_refl) as S2.
    eexists com, _, _. split; [exists (firstn (length xs) Gr); repeat split; [exact Hsh|exact LGs]|]. split; [exact S2|].
    cbv zeta. split; [eexists; reflexivity|]. split; [eexists; reflexivity|]. split; [unfold select_commit; fold tr; rewrite Hc; reflexivity|]. reflexivity.
  Qed.

  (** the circuit of the prover, whatever the values are *)
  Lemma select_session xs h x hx : gens_wf g -> (length xs <= gens_capacity g)%nat -> xs <> [] ->
    exists com s0 s t, opens_vector pc g xs h com /\ session E pc g (test_transcript "select") s t /\
    let cx := pc_commit pc x hx in
    select_commit E pc g xs h x hx = Some (s0, (com, map (VectorCommit 0) (seq 0 (length xs))), (cx, Committed 0)) /\
    prun E (select (lc_var (Committed 0)) (map lc_var (map (VectorCommit 0) (seq 0 (length xs))))) s0 = Some (s, tt) /\
    select_statement E (length xs) com cx = Some t /\
    p_def s = [] /\ v_def t = [] /\ p_vec s = [(h, xs)] /\ p_size s = length xs /\ length (p_aL s) = (length xs - 1)%nat /\
    Forall (Forall (fun x => p_var s (fst x) <> None)) (p_cs s) /\
    (forall z, z <> 0 -> (batched_constraints (p_asg s) z (p_cs s) = 0 <-> In x xs)) /\
    ((2 <= length xs)%nat -> nth (length xs - 2) xs 0 <> 0 ->
      let s' := p_set_wires s (p_aL s) (p_aR s) (removelast (p_aO s) ++ [0]) in
      length (p_aR s) = length (p_aL s) /\ length (removelast (p_aO s) ++ [0]) = length (p_aL s) /\
      Forall (fun lc => lc_val (p_asg s') lc = 0) (p_cs s) /\
      forall i, p_asg s' (MulO i) = p_asg s' (MulL i) * p_asg s' (MulR i) \/ p_asg s' (VectorCommit 0 i) <> 0).
  Proof.
    intros Hw Hl Hne. destruct (select_start xs h x hx Hw Hl) as (com & s0 & t0 & Hop & S0 & [tr1 Es] & [tr2 Et] & Hcom & Hst). cbv zeta in Hst, Hcom.
    set (vars := map (VectorCommit 0) (seq 0 (length xs))) in *.
    assert (Hh : honest s0).
    { split; [|subst s0; constructor]. subst s0. split; [reflexivity|]. split; [reflexivity|]. split; [intros i; cbn; destruct i; cbn; symmetry; apply fmul_0_l|]. discriminate. }
    assert (Ix : issued s0 (Committed 0)) by (subst s0; split; discriminate).
    assert (Iv : Forall (issued s0) vars).
    { apply Forall_map, Forall_forall. intros i Hin. apply in_seq in Hin. subst s0. split; [|discriminate]. cbn. intros Hn. apply nth_error_None in Hn. lia. }
    assert (Vv : map (p_asg s0) vars = xs).
    { subst s0. unfold vars. rewrite map_map. transitivity (map (fun i => nth i xs 0) (seq 0 (length xs))).
      - apply map_ext. intros i. apply asg_nth.
      - clear. induction xs as [|a l IH]; [reflexivity|]. cbn [length seq map nth]. f_equal. rewrite <- seq_shift, map_map. exact IH. }
    assert (Vx : p_asg s0 (Committed 0) = x) by (subst s0; reflexivity).
    assert (Evars : exists v0' vs, vars = v0' :: vs) by (unfold vars; destruct xs; [contradiction|eexists _, _; reflexivity]).
    destruct Evars as (va & vs & Ev).
    assert (Lvs : length vs = (length xs - 1)%nat) by (rewrite <- Vv, map_length, Ev; cbn; lia).
    (* the product *)
    assert (Hrun : forall us, Forall (issued s0) us -> exists s2 q, prun E (sel_prod (lc_var (Committed 0)) (lc_sub (lc_var va) (lc_var (Committed 0))) (map lc_var us)) s0 = Some (s2, q) /\
      honest s2 /\ ext s0 s2 /\ frame s0 s2 /\ lc_ok (issued s2) q /\ lc_val (p_asg s2) q = prod_at x (map (p_asg s0) (va :: us))).
    { intros us Hus. assert (Ia : issued s0 va) by (rewrite Ev in Iv; apply Forall_inv in Iv; exact Iv).
      destruct (wpc_sound (n := 0) E (sel_prod (lc_var (Committed 0)) (lc_sub (lc_var va) (lc_var (Committed 0))) (map lc_var us)) (fun w ok' q => lc_ok ok' q /\ lc_val w q = prod_at x (map (p_asg s0) (va :: us))) s0 (issued s0) Hh (ok_sub_refl _)) as (s2 & q & ok' & Hr & Hh2 & He & Hf & Hok & Ha).
      { intros w Hww. eapply wpc_mono; [|apply sel_wpc].
        - intros ok' q [Hq Hv]. split; [exact Hq|]. rewrite Hv, lc_val_sub, !lc_val_var. cbn [map prod_at fold_right]. fold (prod_at x (map (p_asg s0) us)).
          rewrite (Hww _ Ix), (Hww _ Ia), Vx. f_equal. f_equal. rewrite map_map. apply map_ext_in. intros u Hu. rewrite lc_val_var. apply Hww. exact (proj1 (Forall_forall _ _) Hus u Hu).
        - apply lc_ok_var. exact Ix.
        - apply lc_ok_sub_lc; apply lc_ok_var; assumption.
        - apply Forall_map. eapply Forall_impl; [|exact Hus]. intros u Hu. apply lc_ok_var. exact Hu. }
      destruct (Ha _ (agrees_self _)) as [A B]. exists s2, q. repeat (split; [assumption|]). split; [eapply lc_ok_sub; [exact Hok|exact A]|exact B]. }
    assert (Ivs : Forall (issued s0) vs) by (rewrite Ev in Iv; apply Forall_inv_tail in Iv; exact Iv).
    destruct (Hrun vs Ivs) as (s2 & q & Hr & Hh2 & He & Hf & Hq & Vq). rewrite <- Ev, Vv in Vq.
    set (s := p_constrain s2 q).
    assert (Hp : prun E (select (lc_var (Committed 0)) (map lc_var vars)) s0 = Some (s, tt)).
    { rewrite Ev. cbn [map select]. rewrite sel_split, Hr. reflexivity. }
    destruct (C29_select_verifier_total F V E (lc_var (Committed 0)) (map lc_var vars) t0) as [t Ht]; [rewrite Ev; discriminate|].
    assert (S1 : session E pc g (test_transcript "select") s t) by exact (ses_gadget _ _ _ _ _ _ _ _ _ _ _ _ _ S0 (simg_same _ _ (select_same _ _)) Hp Ht).
    assert (Hlen : length (p_aL s) = (length xs - 1)%nat).
    { unfold s. cbn [p_constrain p_aL]. rewrite (sel_len _ _ _ _ _ _ Hr), map_length, Lvs. subst s0. reflexivity. }
    destruct Hf as (F1 & F2 & F3 & F4). rewrite Es in F3, F4. cbn [p_vec p_def] in F3, F4. pose proof Hh2 as [Hg2 Hcs].
    exists com, s0, s, t. split; [exact Hop|]. split; [exact S1|]. cbv zeta. split; [exact Hcom|]. split; [exact Hp|]. split; [rewrite Hst, Ht; reflexivity|].
    split; [exact F4|]. split; [rewrite Ev in Ht; cbn [map select] in Ht; rewrite (sel_def _ _ _ _ _ Ht), Et; reflexivity|]. split; [exact F3|].
    split; [unfold p_size; rewrite Hlen; unfold s; cbn [p_constrain p_vec]; rewrite F3; cbn [fold_left snd]; lia|]. split; [exact Hlen|]. split; [|split].
    - unfold s. cbn [p_constrain p_cs]. apply Forall_app. split.
      + eapply Forall_impl; [|exact Hcs]. intros lc [Hlc _]. eapply Forall_impl; [|exact Hlc]. intros v [Hv _]. exact Hv.
      + constructor; [|constructor]. eapply Forall_impl; [|exact Hq]. intros v [Hv _]. exact Hv.
    - intros z Hz. change (p_asg s) with (p_asg s2). unfold s. cbn [p_constrain p_cs].
      rewrite batched_constraints_peval, map_app, peval_app, peval_zeros, map_length.
      2: { apply Forall_map. eapply Forall_impl; [|exact Hcs]. intros lc [_ H]. exact H. }
      cbn [map peval]. rewrite Vq. split.
      + intros H. assert (H' : z * (fpow z (length (p_cs s2)) * prod_at x xs) = 0) by (rewrite <- H; ring).
        apply fmul_eq_0 in H' as [H'|H']; [contradiction|]. apply fmul_eq_0 in H' as [H'|H']; [exfalso; exact (fpow_neq_0 _ _ Hz H')|]. apply prod_zero. exact H'.
      + intros H. rewrite (prod_in _ _ H). ring.
    - (* a violated last gate *)
      intros H2 Hv. cbv zeta.
      assert (Evs : exists us ul, vs = us ++ [ul]) by (destruct (exists_last (l := vs)) as (us & ul & ->); [intros ->; cbn in Lvs; lia|eauto]).
      destruct Evs as (us & ul & ->). apply Forall_app in Ivs as [Ius Iul]. apply Forall_inv in Iul.
      destruct (Hrun us Ius) as (s3 & q3 & Hr3 & Hh3 & He3 & Hf3 & Hq3 & _).
      rewrite map_app in Hr. cbn [map] in Hr. rewrite sel_snoc, Hr3 in Hr. cbn [opt_bind] in Hr. unfold p_multiply in Hr.
      destruct (p_eval s3 q3) as [l|] eqn:El; [|discriminate Hr]. cbn [opt_bind] in Hr.
      destruct (p_eval s3 (lc_sub (lc_var ul) (lc_var (Committed 0)))) as [r|] eqn:Er; [|discriminate Hr]. cbn [opt_bind snd] in Hr.
      destruct Hh3 as [(G1 & G2 & G3 & G4) Hcs3]. apply Some_inj in Hr. injection Hr as Hs2 Hq2.
      assert (L3 : length (p_aL s3) = (length xs - 2)%nat).
      { rewrite (sel_len _ _ _ _ _ _ Hr3), map_length, Es. cbn. rewrite app_length in Lvs. cbn in Lvs. lia. }
      assert (EO : p_aO s = p_aO s3 ++ [l * r]) by (unfold s; rewrite <- Hs2; reflexivity).
      assert (EL : p_aL s = p_aL s3 ++ [l]) by (unfold s; rewrite <- Hs2; reflexivity).
      assert (ER : p_aR s = p_aR s3 ++ [r]) by (unfold s; rewrite <- Hs2; reflexivity).
      rewrite EO, removelast_last, EL, ER. split; [rewrite !app_length, G1; reflexivity|]. split; [rewrite !app_length, G2; reflexivity|].
      set (s' := p_set_wires s (p_aL s3 ++ [l]) (p_aR s3 ++ [r]) (p_aO s3 ++ [0])).
      assert (Hag : forall v, issued s3 v -> p_asg s' v = p_asg s3 v).
      { intros v [Hv3 _]. unfold s', s. rewrite <- Hs2. unfold p_asg. destruct v as [j i|i|i|i|i|]; cbn [p_var p_set_wires p_constrain p_aL p_aR p_aO p_v p_vec] in Hv3 |- *; try reflexivity;
          rewrite nth_error_app1; try reflexivity; apply nth_error_Some; exact Hv3. }
      set (n := (length xs - 2)%nat) in *.
      assert (AL : p_asg s' (MulL n) = l) by (unfold p_asg, s'; cbn [p_var p_set_wires p_aL]; rewrite nth_error_app2, L3, Nat.sub_diag by lia; reflexivity).
      assert (AR : p_asg s' (MulR n) = r) by (unfold p_asg, s'; cbn [p_var p_set_wires p_aR]; rewrite nth_error_app2, G1, L3, Nat.sub_diag by lia; reflexivity).
      assert (AO : p_asg s' (MulO n) = 0) by (unfold p_asg, s'; cbn [p_var p_set_wires p_aO]; rewrite nth_error_app2, G2, L3, Nat.sub_diag by lia; reflexivity).
      assert (Il : lc_ok (F := F) (issued s3) (lc_sub (lc_var ul) (lc_var (Committed 0)))) by (apply lc_ok_sub_lc; apply lc_ok_var; eapply ext_issued; eassumption).
      apply p_eval_spec in El as [El _]. apply p_eval_spec in Er as [Er _].
      split.
      + assert (Ecs : p_cs s = ((p_cs s3 ++ [q3 ++ [(MulL n, - (1))]]) ++ [lc_sub (lc_var ul) (lc_var (Committed 0)) ++ [(MulR n, - (1))]]) ++ [lc_var (MulO n)]).
        { unfold s. cbn [p_constrain p_cs]. rewrite <- Hs2, <- Hq2. cbn [p_constrain p_cs p_set_wires]. rewrite L3, G1, G2, L3. reflexivity. }
        rewrite Ecs. apply Forall_app. split; [apply Forall_app; split; [apply Forall_app; split|]|]; [|constructor; [|constructor]..].
        * eapply Forall_impl; [|exact Hcs3]. intros lc [Hlc H0]. rewrite (lc_val_agree _ _ _ _ Hag Hlc). exact H0.
        * rewrite lc_val_app, (lc_val_agree _ _ _ _ Hag Hq3), <- El. cbn. rewrite AL. ring.
        * rewrite lc_val_app, (lc_val_agree _ _ _ _ Hag Il), <- Er. cbn. rewrite AR. ring.
        * rewrite lc_val_var. exact AO.
      + intros i. destruct (Nat.eq_dec i n) as [->|Hi].
        * right. unfold p_asg, s', s. cbn [p_var p_set_wires p_constrain p_vec]. rewrite F3. cbn [nth_error snd]. rewrite asg_nth. exact Hv.
        * left. unfold p_asg, s'. cbn [p_var p_set_wires p_aL p_aR p_aO]. rewrite !asg_nth.
          destruct (Nat.lt_ge_cases i n) as [Hlt|Hge].
          -- rewrite !app_nth1 by lia. exact (G3 i).
          -- rewrite !nth_overflow by (rewrite app_length; cbn [length]; lia). ring.
  Qed.
End Sel.

(** The prover of the test makes a proof for every vector of at least one value and every value;
    the verifier accepts it exactly if the value is in the vector, and otherwise returns
    [VerificationError] (challenges and the scalar of the verifier not zero, proof points not
    the identity).  For values in the vector the scalar of the verifier does not matter. *)
Theorem C86_select_exact : forall (F : Field) (V : VSpace F) (E : TrEnv V) pc g (xs : list F) (h x hx : F),
  gens_wf g -> (next_power_of_two (length xs) <= gens_capacity g < 2 ^ 32)%nat -> pcB pc <> v0 ->
  (forall tr lb, exists c tr', challenge_scalar E tr lb = Some (c, tr') /\ c <> 0) -> xs <> [] ->
  exists com, opens_vector pc g xs h com /\ forall dbg rnd, exists pf,
    select_prove E dbg rnd pc g xs h x hx = Some (Ok (pf, com, pc_commit pc x hx)) /\
    (Forall (fun P => P <> v0) (validated_points (op_degree_of 1) pf) -> forall dbg' rr,
      let verdict := select_verify E dbg' rr pf pc g (length xs) com (pc_commit pc x hx) in
      (verdict = Some (Ok tt) \/ verdict = Some (Err VerificationError)) /\
      (In x xs -> verdict = Some (Ok tt)) /\ (rr <> 0 -> verdict = Some (Ok tt) -> In x xs)).
Proof.
  intros F V E pc g xs h x hx Hw [Hc1 Hc] HB Hch Hne.
  destruct (select_session E pc g xs h x hx Hw) as (com & s0 & s & t & Hop & Hs & Hcom & Hp & Hst & Hd & _ & Hvec & Hsz & _ & Hcs & Hb & _); [pose proof (next_power_of_two_ge (length xs)); lia|exact Hne|].
  exists com. split; [exact Hop|]. intros dbg rnd.
  destruct (C08_prove_total F V E pc g _ _ _ dbg rnd Hs Hd Hw Hch) as (pf & trf & Hpf); [rewrite Hvec; cbn; lia|rewrite Hsz; exact Hc1|exact Hcs|].
  exists pf. split; [unfold select_prove; rewrite Hcom; cbn [opt_bind]; rewrite Hp; cbn [opt_bind]; rewrite Hpf; reflexivity|]. intros Hnz dbg' rr. cbv zeta.
  destruct (C10_exact F V E pc g _ _ _ dbg rnd pf trf Hs Hd Hw Hc HB Hpf) as (t2 & y & z & xc & Hcha & Hx); [rewrite Hvec; exact Hnz|].
  destruct (challenges_nonzero E pf _ t2 y z xc Hch Hcha) as [Hz0 Hx0]. destruct (Hx dbg' rr) as [Hiff Hdec]. clear Hx. rewrite (Hb z Hz0) in Hiff.
  unfold select_verify. rewrite Hst. cbn [opt_bind]. split; [exact Hdec|]. split.
  - intros Hin. apply Hiff. auto.
  - intros Hrr H. apply Hiff in H. destruct H as [H|[H|H]]; [contradiction|contradiction|exact H].
Qed.
Print Assumptions C86_select_exact.

(** An attacker (no code modelled): commits and runs the circuit like the prover of the
    test, sets the output of the last multiplier to zero, and proves with the prover
    [forge] of C67. *)
Definition select_forge {F : Field} {V : VSpace F} (E : TrEnv V) (rnd : PRand F) (pc : PedersenGens V) (g : BPGens V) (xs : list F) (h x hx : F) (oR : list F) : option (R1CSProof V * V * V) :=
  do (s, (com, vars), (cx, vx)) <- select_commit E pc g xs h x hx;
  do (s, _) <- prun E (select (lc_var vx) (map lc_var vars)) s;
  do pf <- forge E rnd pc g (p_set_wires s (p_aL s) (p_aR s) (removelast (p_aO s) ++ [0])) oR;
  Some (pf, com, cx).

(** Refuted: accepted proofs show that the committed value is in the committed vector.  For
    every vector of at least two values whose last but one is not zero, and every value
    [x], in the vector or not, the attacker's proofs are accepted. *)
Theorem C86_select_refuted : forall (F : Field) (V : VSpace F) (E : TrEnv V) pc g (xs : list F) (h x hx : F),
  gens_wf g -> (length xs <= gens_capacity g < 2 ^ 32)%nat -> (2 <= length xs)%nat -> nth (length xs - 2) xs 0 <> 0 ->
  exists com oR, opens_vector pc g xs h com /\ length oR = length xs /\
  forall rnd pf com' cx, select_forge E rnd pc g xs h x hx oR = Some (pf, com', cx) ->
    com' = com /\ cx = pc_commit pc x hx /\
    (Forall (fun P => P <> v0) (validated_points (op_degree_of 1) pf) ->
     forall dbg rr, select_verify E dbg rr pf pc g (length xs) com cx = Some (Ok tt)).
Proof.
  intros F V E pc g xs h x hx Hw [Hc1 Hc] H2 Hv.
  destruct (select_session E pc g xs h x hx Hw Hc1) as (com & s0 & s & t & Hop & Hs & Hcom & Hp & Hst & _ & Hd & Hvec & Hsz & _ & _ & _ & Hf); [intros ->; cbn in H2; lia|].
  destruct (Hf H2 Hv) as (L1 & L2 & Hlin & Hgate). clear Hf.
  destruct (C67_gates_forgeable F V E pc g _ s t (p_aL s) (p_aR s) (removelast (p_aO s) ++ [0]) Hs Hd Hw Hc) as (oR & LoR & K); [rewrite Hvec; reflexivity|reflexivity|exact L1|exact L2|exact Hlin|rewrite Hvec; exact Hgate|].
  exists com, oR. split; [exact Hop|]. split; [rewrite LoR; exact Hsz|]. intros rnd pf com' cx H. unfold select_forge in H. rewrite Hcom in H. cbn [opt_bind] in H. rewrite Hp in H. cbn [opt_bind] in H.
  destruct (forge E rnd pc g _ oR) as [pf'|] eqn:Ef; [|discriminate H]. cbn [opt_bind] in H. apply Some_inj in H. injection H as -> <- <-.
  split; [reflexivity|]. split; [reflexivity|]. intros Hnz dbg rr. unfold select_verify. rewrite Hst. cbn [opt_bind]. eapply K; [exact Ef|rewrite Hvec; exact Hnz].
Qed.
Print Assumptions C86_select_refuted.

(** For a vector without values prover and verifier panic. *)
Theorem C86_select_empty : forall (F : Field) (V : VSpace F) (E : TrEnv V) pc g (h x hx : F) dbg rnd rr pf (com cx : V),
  select_prove E dbg rnd pc g [] h x hx = None /\ select_verify E dbg rr pf pc g 0 com cx = None.
Proof.
  intros F V E pc g h x hx dbg rnd rr pf com cx. split; [|reflexivity]. unfold select_prove, select_commit, p_commit_vec. destruct (share_G g 0 _) as [G|]; [|reflexivity]. cbn [opt_bind]. destruct (Nat.eqb _ _); reflexivity.
Qed.
Print Assumptions C86_select_empty.

(** ** Examples *)
(* test data, no code modelled *)
Definition sel_xs : list F101 := map z101 [4; 9; 6; 3]%Z.
(* test helper, no code modelled: are the points not at infinity, and the verdict *)
Definition sel_run (x : Z) : option (bool * option (Res unit)) :=
  match select_prove sh_env true rnd101 pc101 g101 sel_xs (z101 8) (z101 x) (z101 5) with
  | Some (Ok (pf, com, cx)) => Some (forallb (fun P => negb (veqb P v0)) (validated_points (op_degree_of 1) pf), select_verify sh_env true (z101 7) pf pc101 g101 4 com cx)
  | _ => None
  end.
(* test data, no code modelled: the coefficients of the theorem for the value 10, the
   product at the last multiplier is (4 - 10) (9 - 10) (6 - 10) (3 - 10) = 168 *)
Definition sel_oR : list F101 := [z101 0; z101 0; (z101 0 - z101 168) * finv (z101 6); z101 0].
(* as above, no code modelled *)
Definition sel_forged : option (bool * option (Res unit)) :=
  match select_forge sh_env rnd101 pc101 g101 sel_xs (z101 8) (z101 10) (z101 5) sel_oR with
  | Some (pf, com, cx) => Some (forallb (fun P => negb (veqb P v0)) (validated_points (op_degree_of 1) pf), select_verify sh_env true (z101 7) pf pc101 g101 4 com cx)
  | None => None
  end.
(** The hypotheses are met; the value 9 is accepted, the value 10 refused, and the attacker's
    proof for the value 10 accepted. *)
Example C86_demo : gens_wf g101 /\ (next_power_of_two (length sel_xs) <= gens_capacity g101 < 2 ^ 32)%nat /\ pcB pc101 <> v0 /\
  (forall tr lb, exists c tr', challenge_scalar sh_env tr lb = Some (c, tr') /\ c <> 0) /\ sel_xs <> [] /\ (2 <= length sel_xs)%nat /\ nth (length sel_xs - 2) sel_xs 0 <> 0 /\ ~ In (z101 10) sel_xs /\
  sel_run 9 = Some (true, Some (Ok tt)) /\ sel_run 10 = Some (true, Some (Err VerificationError)) /\ sel_forged = Some (true, Some (Ok tt)).
Proof.
  split; [apply gens_wf_new|]. split; [split; [apply Nat.leb_le; vm_compute; reflexivity|apply (Nat.lt_le_trans _ (2 ^ 8)); [apply Nat.ltb_lt; vm_compute; reflexivity|apply Nat.pow_le_mono_r; lia]]|].
  split; [discriminate|]. split; [intros tr lb; apply const_env_good; apply feqb_false; vm_compute; reflexivity|]. split; [discriminate|]. split; [cbn; lia|]. split; [discriminate|].
  split; [intros H; cbn in H; repeat destruct H as [H|H]; try discriminate H; exact H|]. split; [vm_compute; reflexivity|]. split; vm_compute; reflexivity.
Qed.
