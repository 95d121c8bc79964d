(** * What accepted accumulator proofs show: the part of C75 that holds *)
From Verif Require Import SelPath IPPProofs SoundSpec SoundLift CSProofs UtilProofs CSLogic CSMore R1CS R1CSSpec R1CSCore SoundFree R1CSProofs R1CSVerif R1CSMain R1CSMisc Lockstep CircuitSize PourProofs CoinProofs PropsSound PropsCoin PropsSize PropsConserve PropsAcc.
Local Open Scope F_scope.

Section AccCount.
  Context {F0 F1 : PField} {P0 : SWCurve F1 F0} {P1 : SWCurve F0 F1}.
  Variables (E0 : TrEnv P0) (enc1 : P1 -> bytes).
  Lemma completed_even (t : CurveTree P0 P1) p p' : verification_commitments t p = Some p' ->
    exists o, root_is_odd p' = Some o /\ (if o then length (pa_even p') else length (pa_even p') - 1)%nat = length (pa_even p).
  Proof.
    intros Hp. unfold verification_commitments, guard in Hp. unfold root_is_odd, guard. destruct t as [ct|ct].
    - destruct (Nat.eqb_spec (length (pa_even p) + 1) (length (pa_odd p))) as [Hl|]; [|discriminate Hp]. destruct (n_commitment ct 0); [|discriminate Hp]. cbn [opt_bind] in Hp. apply Some_inj in Hp. subst p'. cbn [pa_even pa_odd length].
      exists false. destruct (Nat.eqb_spec (S (length (pa_even p)) + 1) (length (pa_odd p))); [lia|]. destruct (Nat.eqb_spec (S (length (pa_even p))) (length (pa_odd p))); [|lia]. split; [reflexivity|lia].
    - destruct (Nat.eqb_spec (length (pa_even p)) (length (pa_odd p))) as [Hl|]; [|discriminate Hp]. destruct (n_commitment ct 0); [|discriminate Hp]. cbn [opt_bind] in Hp. apply Some_inj in Hp. subst p'. cbn [pa_even pa_odd length].
      exists true. destruct (Nat.eqb_spec (length (pa_even p) + 1) (S (length (pa_odd p)))); [|lia]. split; reflexivity.
  Qed.
  Lemma unwrap_ok {A} (o : option (Res A)) a : unwrap o = Some a -> o = Some (Ok a).
  Proof. destruct o as [[x|]|]; cbn; congruence. Qed.
  Lemma acc_count L prm (t : CurveTree P0 P1) width e path srv leaf te : verification_commitments t path = Some srv -> acc_even E0 enc1 L prm t width e srv leaf = Some te ->
    length (v_vec te) = (length (pa_even path) + 1)%nat.
  Proof.
    intros Hp H. destruct (completed_even _ _ _ Hp) as (o & Hr & Hl). unfold acc_even in H. destruct (even_gadget E0 enc1 L prm t srv (v_new acc_transcript)) as [t0|] eqn:Eg; [|discriminate H]. cbn [opt_bind] in H.
    pose proof (even_gadget_dims E0 enc1 _ _ _ _ _ _ _ Hr Eg) as D. rewrite Hl in D. apply (f_equal (@length nat)) in D. unfold dims in D. rewrite app_length, !map_length, repeat_length in D. cbn [v_new v_vec length] in D.
    assert (Hv : v_vec (fst (v_commit_vec E0 t0 width leaf)) = v_vec t0 ++ [(leaf, width)]) by reflexivity. destruct (v_commit_vec E0 t0 width leaf) as [t1 us]. cbn [fst] in Hv.
    destruct us as [|u us]; [discriminate H|]. cbn [map select] in H. rewrite loop_vrun in H. cbn [opt_bind] in H. apply Some_inj in H. subst te. change (length (v_vec t1) = (length (pa_even path) + 1)%nat). rewrite Hv, app_length. cbn [length]. cbn in D. lia.
  Qed.
  Lemma path_even (E1 : TrEnv P1) (enc0 : P0 -> bytes) oc L (t : CurveTree P0 P1) i j prm evens odds pc0 pc1 os es s0 s1 s0' s1' path r : tree_witness oc L t i j prm = Some (evens, odds) ->
    tree_prove E0 E1 enc0 enc1 oc L t i j pc0 pc1 prm os es s0 s1 = Some (s0', s1', (path, r)) -> length (pa_even path) = (length odds - 1)%nat.
  Proof.
    intros Hw. unfold tree_prove. rewrite Hw. cbn [opt_bind fst snd]. unfold sr_prove. destruct (root_is_even evens odds) as [top|]; [|discriminate]. cbn [opt_bind].
    destruct (prove_levels E0 _ _ _ _) as [a|]; [|discriminate]. cbn [opt_bind]. destruct (prove_levels E1 _ _ _ _) as [b|]; [|discriminate]. cbn [opt_bind]. intros H. apply Some_inj in H. injection H as _ _ <- _.
    cbn [pa_even]. rewrite SelPath.removelast_len, SelPath.imap_length. reflexivity.
  Qed.
End AccCount.

(** One copy of the two proofs: the bench accepts exactly when the path can be completed to the
    root and the ordinary verifiers of both curves accept their circuits.  So neither proof is
    left out. *)
Theorem C75_both_checked : forall (F0 F1 : PField) (P0 : SWCurve F1 F0) (P1 : SWCurve F0 F1) (E0 : TrEnv P0) (E1 : TrEnv P1) (enc0 : P0 -> bytes) (enc1 : P1 -> bytes)
    dbg L (prm : SRParams P0 P1) t width element path pf0 pf1 rr0 rr1,
  acc_verify E0 E1 enc0 enc1 dbg L prm t width element path pf0 pf1 [rr0] [] [rr1] [] = Some tt <->
  exists srv te to, verification_commitments t path = Some srv /\ acc_even E0 enc1 L prm t width element srv (pa_selected path) = Some te /\ acc_odd E1 enc0 L prm t srv = Some to /\
    r1cs_verify E0 dbg rr0 pf0 (sl_pc (even_p prm)) (sl_bp (even_p prm)) te = Some (Ok tt) /\ r1cs_verify E1 dbg rr1 pf1 (sl_pc (odd_p prm)) (sl_bp (odd_p prm)) to = Some (Ok tt).
Proof.
  intros. unfold acc_verify. cbn [map all_some]. unfold acc_entry0, acc_entry1, r1cs_verify.
  destruct (verification_commitments t path) as [srv|]; cbn [opt_bind]; [|split; [discriminate|intros (? & ? & ? & H & _); discriminate H]].
  destruct (acc_even E0 enc1 L prm t width element srv (pa_selected path)) as [te|] eqn:Ee; cbn [opt_bind]; [|split; [discriminate|intros (s & ? & ? & H1 & H2 & _); apply Some_inj in H1; subst s; congruence]].
  destruct (acc_odd E1 enc0 L prm t srv) as [to|] eqn:Eo; cbn [opt_bind].
  2:{ split; [|intros (s & ? & ? & H1 & H2 & H3 & _); apply Some_inj in H1; subst s; congruence]. destruct (unwrap (v_scalars_and_points E0 dbg rr0 pf0 te)); cbn [opt_bind]; [|discriminate]. destruct (unwrap (batch_verify _ _ _ _)); discriminate. }
  split.
  - intros H. exists srv, te, to. split; [reflexivity|]. split; [exact Ee|]. split; [exact Eo|].
    destruct (unwrap (v_scalars_and_points E0 dbg rr0 pf0 te)) as [v0'|] eqn:U0; [|discriminate H]. cbn [opt_bind] in H. apply unwrap_ok in U0. rewrite U0.
    destruct (unwrap (batch_verify [v0'] [] (sl_pc (even_p prm)) (sl_bp (even_p prm)))) as [[]|] eqn:B0; [|discriminate H]. cbn [opt_bind] in H. apply unwrap_ok in B0.
    destruct (unwrap (v_scalars_and_points E1 dbg rr1 pf1 to)) as [v1'|] eqn:U1; [|discriminate H]. cbn [opt_bind] in H. apply unwrap_ok in U1, H. rewrite U1. split; assumption.
  - intros (s & e & o & H1 & H2 & H3 & V0 & V1). apply Some_inj in H1. subst s. rewrite Ee in H2. rewrite Eo in H3. apply Some_inj in H2, H3. subst e o.
    destruct (v_scalars_and_points E0 dbg rr0 pf0 te) as [[v0'|]|]; [|discriminate V0|discriminate V0]. destruct (v_scalars_and_points E1 dbg rr1 pf1 to) as [[v1'|]|]; [|discriminate V1|discriminate V1]. cbn [unwrap opt_bind].
    change (mega_check (sl_pc (even_p prm)) (sl_bp (even_p prm)) ((length (vt_fixed v0') - 2) / 2) (vt_points v0') (vt_scalars v0') (vt_fixed v0') = Some (Ok tt)) in V0.
    change (mega_check (sl_pc (odd_p prm)) (sl_bp (odd_p prm)) ((length (vt_fixed v1') - 2) / 2) (vt_points v1') (vt_scalars v1') (vt_fixed v1') = Some (Ok tt)) in V1.
    unfold batch_verify. cbn [batch_acc]. rewrite V0. cbn [unwrap opt_bind]. rewrite V1. reflexivity.
Qed.
Print Assumptions C75_both_checked.

(** What holds of C75, for provers that know the coefficients of all their points over the
    generators and use the generators [G], [B], [B~] only for the vector commitments: when the
    proof over the curve of the leaves is accepted and the number of inner nodes of that curve
    on the path is odd (it is for heights 3 or 0 modulo 4), the prover knows an opening of
    the commitment in the path that contains the element in one of the first [width] places --
    unless the proof gives a relation between the generators or a challenge falls into a set of
    few values fixed before it.  The circuit, and so the element, is fixed before the
    challenges.  Missing: elements chosen after the proof ([C76_late_element_refuted]),
    commitments with coefficients on [H] (C71), an even number of inner nodes (C67), and that
    the commitment is that of a leaf, which is false ([C75_any_element_refuted]). *)
Theorem C75_sound_partial : forall (F0 F1 : PField) (P0 : SWCurve F1 F0) (P1 : SWCurve F0 F1) (N : nat) (t2 : VState (FreeV F0 (2 + (N + N)))) n1 AI1 AO1 SS1 AI2 AO2 SS2,
  (forall cd i, In cd (v_vec t2) -> on_H N i (fst cd) = 0) ->
  unless_unlucky N t2 (fun y z T u x tx txb eb w Ls Rs us a b rr =>
    let pf := mkProof AI1 AO1 SS1 AI2 AO2 SS2 T tx txb eb (mkIPP Ls Rs a b) in
    forall (E0 : TrEnv P0) (enc1 : P1 -> bytes) dbg L (prm : SRParams P0 P1) t width element path srv te pc g Gs Hs vt,
      let phi := free_eval (generators pc Gs Hs) in
      let rep k := fst (nth k (v_vec t2) (v0, 0%nat)) in
      gens_wf g -> share_G g 0 N = Some Gs -> share_H g 0 N = Some Hs -> v_size te = n1 -> length Rs = length Ls -> next_power_of_two (v_size t2) = N ->
      Nat.odd (length (pa_even path)) = true ->
      verification_commitments t path = Some srv -> acc_even E0 enc1 L prm t width element srv (pa_selected path) = Some te ->
      all_challenges E0 (map_proof phi pf) te = Some (map_vstate phi t2, (y, z, u, x, w), us) ->
      acc_entry0 E0 enc1 dbg L prm t width element path (map_proof phi pf) rr = Some vt -> batch_verify [vt] [] pc g = Some (Ok tt) ->
      let c := combined N (vt_scalars vt) (all_points t2 pf) (vt_fixed vt) in
      (c <> v0 /\ free_eval (generators pc Gs Hs) c = v0) \/
      exists k j, phi (rep k) = pa_selected path /\ (j < width)%nat /\ on_G N j (rep k) = element).
Proof.
  intros F0 F1 P0 P1 N t2 n1 AI1 AO1 SS1 AI2 AO2 SS2 HH.
  destruct (Nat.even (length (v_vec t2))) eqn:Hev.
  - eapply unlucky_mono; [|exact (C66_sound_even_partial F0 P0 N t2 n1 AI1 AO1 SS1 AI2 AO2 SS2 Hev HH)]. cbv beta zeta.
    intros y z T u x tx txb eb w Ls Rs us a b rr Hg E0 enc1 dbg L prm t width element path srv te pc g Gs Hs vt Hw HGs HHs Hn HR HN Hpe Hp Hc Hch Hv Hb.
    unfold acc_entry0 in Hv. rewrite Hp in Hv. cbn [opt_bind] in Hv. rewrite Hc in Hv. cbn [opt_bind] in Hv. apply unwrap_ok in Hv.
    assert (Hok : r1cs_verify E0 dbg rr (map_proof (free_eval (generators pc Gs Hs)) (mkProof AI1 AO1 SS1 AI2 AO2 SS2 T tx txb eb (mkIPP Ls Rs a b))) pc g te = Some (Ok tt)) by (unfold r1cs_verify; rewrite Hv; exact Hb).
    destruct (Hg E0 dbg pc g te Gs Hs vt Hw HGs HHs Hn HR HN Hch Hok Hv) as [Hrel|Hsat]; [left; exact Hrel|right].
    destruct (challenges_state _ _ _ _ _ _ Hch) as [Hvec Hcs]. apply (satisfies_incl _ _ _ Hcs) in Hsat.
    destruct (C75_circuit _ _ _ _ _ _ _ _ _ _ _ _ _ _ _ Hc (proj1 Hsat) Hsat) as (k & j & Hk & Hj & Hval).
    exists k, j. split; [exact (rep_nth _ _ _ _ _ _ _ Hvec Hk)|]. split; [exact Hj|exact Hval].
  - eapply unlucky_mono; [|exact (C66_extraction F0 P0 N t2 n1 AI1 AO1 SS1 AI2 AO2 SS2)]. cbv beta zeta.
    intros y z T u x tx txb eb w Ls Rs us a b rr _ E0 enc1 dbg L prm t width element path srv te pc g Gs Hs vt Hw HGs HHs Hn HR HN Hpe Hp Hc Hch Hv Hb. exfalso.
    apply (acc_count _ _ _ _ _ _ _ _ _ _ _ Hp) in Hc. destruct (challenges_state _ _ _ _ _ _ Hch) as [Hvec _]. cbn [map_vstate v_vec] in Hvec. rewrite <- Hvec, map_length in Hc.
    rewrite Hc, Nat.add_1_r, Nat.even_succ, Hpe in Hev. discriminate Hev.
Qed.
Print Assumptions C75_sound_partial.

(** The honest prover of [C75_demo]: all hypotheses hold except that the challenges are lucky
    (points of the toy curves are their discrete logarithms). *)
From Verif Require Import Toy ToyCurve PropsGadgets PropsRerand PropsSelRerand PropsSelBatch.
Example C75_sound_demo : exists (prm : SRParams TC0 TC1) t leaf s0 s1 path srv te, from_set 6 2 1 prm (toy_acc leaf) None = TOk t /\ t_height t = 3%nat /\ acc_leaf prm toy_elements = Some leaf /\
  acc_circuits EE0 EE1 ec0 ec1 true 2 prm t 1 toy_elements (f163 22) toy_os toy_es = Some (s0, s1, path) /\ Nat.odd (length (pa_even path)) = true /\ gens_wf pos0 /\
  verification_commitments t path = Some srv /\ acc_even EE0 ec1 2 prm t 3 (f163 22) srv (pa_selected path) = Some te /\
  forall dbg0 rnd0 pf0, good_proof EE0 dbg0 rnd0 toy_pcg pos0 s0 pf0 ->
    (forall rr, exists vt, acc_entry0 EE0 ec1 true 2 prm t 3 (f163 22) path pf0 rr = Some vt /\ batch_verify [vt] [] toy_pcg pos0 = Some (Ok tt)) /\
    exists N Gs Hs (t2 : VState (FreeV PF163 (2 + (N + N)))) (pf' : R1CSProof (FreeV PF163 (2 + (N + N)))) y z u x w us, share_G pos0 0 N = Some Gs /\ share_H pos0 0 N = Some Hs /\
      length (ipp_R (pipp pf')) = length (ipp_L (pipp pf')) /\ next_power_of_two (v_size t2) = N /\ (forall cd i, In cd (v_vec t2) -> on_H N i (fst cd) = 0) /\
      pf0 = map_proof (free_eval (V := TC0) (generators toy_pcg Gs Hs)) pf' /\ all_challenges EE0 pf0 te = Some (map_vstate (free_eval (V := TC0) (generators toy_pcg Gs Hs)) t2, (y, z, u, x, w), us).
Proof.
  assert (Hwa : with_acc (fun _ _ _ _ o => (length o =? 2)%nat) = true) by (vm_compute; reflexivity).
  destruct (with_acc_spec _ Hwa) as (prm & t & leaf & e & o & H0 & H1 & Hl & Ht & Hh & Hw & Ae & Ao & Ho). apply Nat.eqb_eq in Ho.
  destruct (sl_new_good _ _ _ _ H0) as (Hg0 & Eb0 & Ep0 & _), (sl_new_good _ _ _ _ H1) as (Hg1 & Eb1 & Ep1 & _).
  destruct (walk_honest EE0 EE1 ec0 ec1 true 2 1 prm (toy_acc leaf) 6 None t 1 leaf e o toy_os toy_es Hg0 Hg1 eq_refl eq_refl Ht ltac:(rewrite Hh; vm_compute; reflexivity) ltac:(lia) ltac:(rewrite Hh; discriminate) eq_refl Hw Ae Ao) as (s0 & s1 & path & r & Hp & Hh0 & Hh1 & Hd0 & Hd1 & (srv & t0 & t1 & V1 & V2 & V3 & S0 & S1) & Hsel).
  pose proof (leaf_blinding prm toy_elements leaf r Hl) as Hcm. rewrite <- Hsel in Hcm.
  destruct (open_total EE0 (P1 := TC1) prm s0 toy_elements r (pa_selected path) (f163 22) Hh0 Hcm ltac:(right; left; reflexivity)) as (s0' & Hop & Hh0' & Hd0'). rewrite Hd0 in Hd0'.
  destruct (open_lockstep EE0 _ _ _ _ _ _ _ _ _ S0 Hop) as (te & Hv & S0').
  assert (Hev : acc_even EE0 ec1 2 prm t 3 (f163 22) srv (pa_selected path) = Some te) by (unfold acc_even; rewrite V2; cbn [opt_bind]; exact Hv).
  exists prm, t, leaf, s0', s1, path, srv, te. split; [exact Ht|]. split; [exact Hh|]. split; [exact Hl|]. split.
  { unfold acc_circuits. change 1%N with (N.of_nat 1). rewrite Hp. cbn [opt_bind]. rewrite Hop. cbn [opt_bind]. rewrite (proj2 (veqb_true _ _) eq_refl). reflexivity. }
  split.
  { rewrite (path_even EE0 ec1 EE1 ec0 _ _ _ _ _ _ _ _ _ _ _ _ _ _ _ _ _ _ Hw Hp), Ho. reflexivity. }
  split; [apply gens_wf_new|]. split; [exact V1|]. split; [exact Hev|]. rewrite <- Ep0, <- Eb0. intros dbg0 rnd0 pf0 G0. split.
  - intros rr. destruct (good_tuple EE0 dbg0 rnd0 _ _ _ _ _ pf0 true rr S0' Hd0' Hh0' ltac:(rewrite Eb0; apply gens_wf_new) ltac:(rewrite Eb0; exact cap_256) G0) as (vt & Hvt & Hb).
    exists vt. split; [|exact Hb]. unfold acc_entry0. rewrite V1. cbn [opt_bind]. rewrite Hev. cbn [opt_bind]. rewrite Hvt. reflexivity.
  - assert (Hdl : forall P : TC0, P = vsmul (dlog0 P) (pcB (sl_pc (even_p prm)))) by (rewrite Ep0; exact dlog0_spec).
    exact (honest_represented EE0 _ _ dlog0 _ _ _ _ _ _ Hdl S0' Hd0' Hh0' ltac:(rewrite Eb0; apply gens_wf_new) ltac:(rewrite Eb0; exact cap_256) G0).
Qed.
(** One copy of the proofs (both sides of [C75_both_checked]): accepted as made, refused when
    one scalar of the proof over the odd curve is changed (tests when this file is compiled). *)
Definition C75_single (prm : SRParams TC0 TC1) t (path : Path TC0 TC1) pf0 pf1 : bool :=
  match acc_verify EE0 EE1 ec0 ec1 true 2 prm t 3 (f163 22) path pf0 pf1 [f163 3] [] [f139 4] [] with Some _ => true | None => false end.
(* test data or vocabulary of statements, no code modelled *)
Definition C75_both_value : bool := Eval vm_compute in with_acc (fun prm t leaf e o =>
  match acc_prove EE0 EE1 ec0 ec1 true true (toy_rnd PM163) (toy_rnd PM139) 2 prm t 1 toy_elements (f163 22) toy_os toy_es with
  | Some (path, pf0, pf1) =>
      let '(mkProof AI1 AO1 SS1 AI2 AO2 SS2 T tx txb eb ipp) := pf1 in
      C75_single prm t path pf0 pf1 && negb (C75_single prm t path pf0 (mkProof AI1 AO1 SS1 AI2 AO2 SS2 T (tx + 1) txb eb ipp))
  | None => false end)%bool.
Example C75_both_test : C75_both_value = true.
Proof. reflexivity. Qed.
