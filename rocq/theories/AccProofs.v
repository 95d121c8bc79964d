(** * Proofs about the accumulator: agreement of prover and verifier, batches *)
From Verif Require Export Accumulator Late ForgePour.
From Verif Require Import CSProofs UtilProofs Lockstep CSMore R1CS R1CSSpec R1CSCore R1CSProofs R1CSVerif R1CSBatch R1CSMain IPPProofs CSLogic GadgetProofs TreeProofs SelSim PropsGadgets PropsSingle PropsRerand PropsSelRerand.
Local Open Scope F_scope.

(** ** The attacker of C75

    No code of the repository is modelled in this section: the prover of accumulator.rs with
    the forged path of [ForgePath] and elements of the attacker's choice. *)
Section Attack.
  Context {F0 F1 : PField} {P0 : SWCurve F1 F0} {P1 : SWCurve F0 F1}.
  (* vocabulary of specifications and proofs, no code modelled *)
  Definition acc_forge (E0 : TrEnv P0) (E1 : TrEnv P1) (enc0 : P0 -> bytes) (enc1 : P1 -> bytes) (prm : SRParams P0 P1) (evens : list (Wit F0 P1)) (odds : list (Wit F1 P0))
    (elements : list F0) (blinding element : F0) (R : P0) (os : nat -> F1) (es : nat -> F0) : option (PState F0 * PState F1 * Path P0 P1) :=
    do (s0, s1, path) <- forge_path E0 E1 enc0 enc1 prm evens odds R os es (p_new acc_transcript) (p_new acc_transcript);
    do r <- acc_open (P1 := P1) E0 (sl_pc (even_p prm)) prm elements blinding element s0;
    Some (fst r, s1, path).
End Attack.

(** ** Batches of one proof *)
Section Batch.
  Context {F : Field} {V : VSpace F} (E : TrEnv V) (pc : PedersenGens V) (g : BPGens V).

  Lemma proof_lengths dbg rnd s pf trf : r1cs_prove E dbg rnd pc g s = Some (Ok (pf, trf)) -> length (ipp_R (pipp pf)) = length (ipp_L (pipp pf)).
  Proof.
    intros H. destruct (prove_run E pc g _ _ _ _ _ H) as (s2 & tr1 & tr3 & y & z & u & x & w & try_ & trz & trT & tru & trx & trw & fl & l & r & tp & lx & rx & Gr & Hr & Hrun).
    destruct (ipp_create_spec E _ _ _ _ _ _ _ _ _ _ (rn_ipp _ _ _ _ _ _ _ _ _ _ _ _ _ _ _ _ _ _ _ _ _ _ _ _ _ _ _ _ _ _ Hrun)) as (k & us & _ & _ & _ & _ & _ & _ & _ & HL & HR & _). congruence.
  Qed.
  Lemma all_tuples es vts : Forall2 (has_tuple (V := V) E) es vts -> all_some (map (fun e => unwrap (v_scalars_and_points E (en_dbg e) (en_rr e) (en_pf e) (en_t e))) es) = Some vts.
  Proof.
    induction 1 as [|e vt es vts He _ IH]; [reflexivity|]. cbn [map all_some]. unfold has_tuple in He. rewrite He. cbn [unwrap]. rewrite IH. reflexivity.
  Qed.
  Lemma batch_copies dbg pf (t : VState V) rrs ws : length (ipp_R (pipp pf)) = length (ipp_L (pipp pf)) -> v_def t = [] -> gens_wf g ->
    (forall rr, r1cs_verify E dbg rr pf pc g t = Some (Ok tt)) -> length rrs = S (length ws) ->
    exists vts, all_some (map (fun rr => unwrap (v_scalars_and_points E dbg rr pf t)) rrs) = Some vts /\ batch_verify vts ws pc g = Some (Ok tt).
  Proof.
    intros HR Hd Hw Hv Hl. set (es := map (fun rr => mkEntry dbg rr pf t) rrs). set (N := next_power_of_two (v_size t)).
    assert (Hok : Forall (entry_ok N) es). { apply Forall_forall. intros e He. apply in_map_iff in He as (rr & <- & _). repeat split; assumption. }
    assert (Hacc : Forall (PropsR1CS.accepted E pc g) es). { apply Forall_forall. intros e He. apply in_map_iff in He as (rr & <- & _). apply Hv. }
    assert (Hcap : (N <= gens_capacity g)%nat).
    { destruct (accepted_tuple E pc g (mkEntry dbg 0 pf t) (Hv 0)) as (vt & Hvt). pose proof (tuple_well_sized E _ _ _ _ _ Hvt HR Hd) as Hs.
      pose proof (proj1 (verify_checks E pc g dbg 0 pf t vt Hvt Hs) (Hv 0)) as Hc. unfold checks, mega_check in Hc. fold N in Hc. destruct (Nat.ltb_spec (gens_capacity g) N); [discriminate Hc|assumption]. }
    destruct (C19_batch_complete F V E pc g N es Hw Hcap) as (vts & Hvts & Hb); [destruct rrs; [discriminate Hl|discriminate]|exact Hok|exact Hacc|].
    exists vts. apply all_tuples in Hvts. unfold es in Hvts. rewrite map_map in Hvts. split; [exact Hvts|]. apply Hb. unfold es. rewrite map_length. symmetry. exact Hl.
  Qed.
End Batch.

(** ** Committing to a list of values *)
Section Open.
  Context {F0 F1 : PField} {P0 : SWCurve F1 F0} {P1 : SWCurve F0 F1}.
  Variables (E0 : TrEnv P0) (E1 : TrEnv P1) (enc0 : P0 -> bytes) (enc1 : P1 -> bytes).
  Add Field FFacc : (f_th F0).

  Lemma commit_list (sl : SLParams P0) {n} (s : PState F0) xs r c : honest_from n s -> sl_commit sl xs r 0 = Some c ->
    exists s' us, p_commit_vec E0 (sl_pc sl) (sl_bp sl) s xs r = Some (s', (c, us)) /\ honest_from n s' /\ keeps s s' /\ us = map (VectorCommit (length (p_vec s))) (seq 0 (length xs)) /\
      Forall (issued s') us /\ map (p_asg s') us = xs /\ p_def s' = p_def s.
  Proof.
    intros Hh Hc. rewrite <- (C22_same_commitment _ _ _ E0 sl s xs r) in Hc.
    destruct (p_commit_vec E0 (sl_pc sl) (sl_bp sl) s xs r) as [[s' [c' us]]|] eqn:Ec; [|discriminate Hc]. cbn in Hc. apply Some_inj in Hc. subst c'.
    destruct (p_commit_vec_inv E0 _ _ _ _ _ _ _ (proj1 Hh) Ec) as [Hg1 Hext]. destruct (p_commit_vec_returns E0 _ _ _ _ _ _ _ _ Ec) as [Hlu Hus].
    pose proof (ext_keeps _ _ Hext) as Hk. destruct (p_commit_vec_spec E0 _ _ _ _ _ _ _ _ Ec) as (_ & _ & Eus & Es).
    exists s', us. split; [reflexivity|]. split.
    { split; [exact Hg1|]. assert (Ecs : p_cs s' = p_cs s) by (rewrite Es; reflexivity). rewrite Ecs.
      eapply Forall_impl; [|exact (proj2 Hh)]. intros lc [O1 O2]. split; [eapply lc_ok_sub; [|exact O1]; intros u Hu; apply Hk, Hu|]. rewrite (keeps_val _ _ _ Hk O1). exact O2. }
    split; [exact Hk|]. split; [exact Eus|].
    split. { apply Forall_forall. intros u Hu. destruct (In_nth _ _ One Hu) as (i & Hi & <-). apply Hus. lia. }
    split; [|rewrite Es; reflexivity]. apply (nth_ext _ _ 0 0); [rewrite map_length; exact Hlu|]. rewrite map_length. intros i Hi. rewrite (nth_indep _ 0 (p_asg s' One)) by (rewrite map_length; exact Hi). rewrite map_nth.
    apply issued_var. rewrite (proj2 (Hus i ltac:(lia))). apply nth_error_nth'. lia.
  Qed.

  Lemma leaf_blinding (prm : SRParams P0 P1) elements leaf (r : F0) : acc_leaf (P1 := P1) prm elements = Some leaf -> sl_commit (even_p prm) elements r 0 = Some (vadd leaf (vsmul r (pcB_blinding (sl_pc (even_p prm))))).
  Proof. intros H. apply (C22_blinding _ _ _ _ _ _ r) in H. replace (0 + r) with r in H by ring. exact H. Qed.
  (** Zeros at the end do not change a commitment. *)
  Lemma commit_zeros (sl : SLParams P0) (xs : list F0) m b c G : sl_commit sl xs b 0 = Some c -> nth_error (G_vec (sl_bp sl)) 0 = Some G -> (length xs + m <= length G)%nat -> sl_commit sl (xs ++ repeat (0 : F0) m) b 0 = Some c.
  Proof.
    intros H HG Hl. rewrite sl_commit_spec in *. rewrite HG in *. cbn [opt_bind] in *. unfold guard in *. rewrite app_length, repeat_length.
    destruct (_ || _)%bool in H; [|discriminate H]. apply Some_inj in H. subst c.
    assert (Hb : ((length xs + m =? 0)%nat || ((length xs + m) * (0 + 1) <=? length G)%nat)%bool = true) by (apply Bool.orb_true_iff; right; apply Nat.leb_le; lia).
    rewrite Hb. rewrite !Nat.mul_0_r. cbn [skipn]. f_equal. f_equal. rewrite <- (firstn_skipn (length xs) G) at 1. rewrite msm_app by (rewrite firstn_length; lia).
    change (repeat (0 : F0) m) with (zeros (F := F0) m). rewrite msm_zeros, msm_firstn_r by lia. apply vadd_0_r.
  Qed.
  Lemma open_total prm (s : PState F0) elements r c e : honest s -> sl_commit (even_p prm) elements r 0 = Some c -> In e elements ->
    exists s', acc_open (P1 := P1) E0 (sl_pc (even_p prm)) prm elements r e s = Some (s', c) /\ honest s' /\ p_def s' = p_def s.
  Proof.
    intros Hh Hc He. unfold acc_open. destruct (commit_list (even_p prm) s elements r c Hh Hc) as (s1 & us & -> & Hh1 & _ & _ & Hi & Hv & Hd). cbn [opt_bind].
    destruct (C29_select_complete F0 P0 E0 (lc_const e) (map lc_var us) s1 Hh1) as (s2 & R & Hh2 & _ & _).
    { apply lc_ok_const, issued_one. }
    { apply Forall_map. eapply Forall_impl; [|exact Hi]. intros u Hu. apply lc_ok_var, Hu. }
    { rewrite lc_val_const by reflexivity. rewrite map_map. rewrite (map_ext _ (p_asg s1)) by (intros u; apply lc_val_var). rewrite Hv. exact He. }
    rewrite R. cbn [opt_bind]. exists s2. split; [reflexivity|]. split; [exact Hh2|]. rewrite <- Hd. eapply simg_def; [|exact R]. apply select_same.
  Qed.
  Lemma open_lockstep prm tr (s : PState F0) (t : VState P0) elements r e s' c : session E0 (sl_pc (even_p prm)) (sl_bp (even_p prm)) tr s t -> acc_open (P1 := P1) E0 (sl_pc (even_p prm)) prm elements r e s = Some (s', c) ->
    exists t', (let '(t1, vars) := v_commit_vec E0 t (length elements) c in do (t2, _) <- vrun E0 (select (lc_const e) (map lc_var vars)) t1; Some t2) = Some t' /\ session E0 (sl_pc (even_p prm)) (sl_bp (even_p prm)) tr s' t'.
  Proof.
    intros Hs. unfold acc_open. destruct (p_commit_vec E0 _ _ s elements r) as [[s1 [c' us]]|] eqn:Ec; [|discriminate]. cbn [opt_bind].
    destruct (prun E0 _ s1) as [[s2 []]|] eqn:R; [|discriminate]. cbn [opt_bind]. intros H. apply Some_inj, pair_inj in H as [<- <-].
    pose proof (session_locked E0 (sl_pc (even_p prm)) (sl_bp (even_p prm)) tr) as HR.
    destruct (lk_commit_vec _ _ _ _ HR _ _ _ _ _ _ _ Hs Ec) as [Hu Hs1]. destruct (v_commit_vec E0 t (length elements) c') as [t1 us'] eqn:Ev. cbn [fst snd] in Hu, Hs1. subst us'.
    destruct (lk_gadget _ _ _ _ HR unit _ (select (lc_const e) (map lc_var us)) _ _ _ _ Hs1 ltac:(apply simg_same, select_same) R) as (t2 & Ht & Hs2). rewrite Ht. cbn [opt_bind]. eauto.
  Qed.

  (** ** Paths *)
  Lemma sr_verify_inv dbg L prm t p (t0 : VState P0) (t1 : VState P1) t0' t1' R : sr_verify E0 E1 enc0 enc1 dbg L prm t p t0 t1 = Some (t0', t1', R) ->
    exists srv, verification_commitments t p = Some srv /\ even_gadget E0 enc1 L prm t srv t0 = Some t0' /\ odd_gadget E1 enc0 L prm t srv t1 = Some t1' /\ pa_selected p = R.
  Proof.
    intros Hv. unfold sr_verify in Hv. destruct (verification_commitments t p) as [p'|] eqn:Evc; [|discriminate Hv]. cbn [opt_bind] in Hv. destruct (_ && _)%bool; [discriminate Hv|].
    assert (Esel : pa_selected p' = pa_selected p).
    { unfold verification_commitments in Evc. destruct t as [ct|ct]; unfold guard in Evc; (destruct (_ =? _)%nat; [|discriminate Evc]); (destruct (n_commitment ct 0); [|discriminate Evc]); cbn [opt_bind] in Evc; apply Some_inj in Evc; subst p'; reflexivity. }
    destruct (even_gadget E0 enc1 L prm t p' t0) as [t0''|] eqn:Eg; [|discriminate Hv]. cbn [opt_bind] in Hv. destruct (odd_gadget E1 enc0 L prm t p' t1) as [t1''|] eqn:Og; [|discriminate Hv]. cbn [opt_bind] in Hv.
    apply Some_inj in Hv. apply pair_inj in Hv as [Hv <-]. apply pair_inj in Hv as [-> ->]. exists p'. auto.
  Qed.
  (** Prover and verifier have walked along a path. *)
  Definition walked L (prm : SRParams P0 P1) t path (s0 : PState F0) (s1 : PState F1) : Prop := exists srv t0 t1, verification_commitments t path = Some srv /\
    even_gadget E0 enc1 L prm t srv (v_new acc_transcript) = Some t0 /\ odd_gadget E1 enc0 L prm t srv (v_new acc_transcript) = Some t1 /\
    session E0 (sl_pc (even_p prm)) (sl_bp (even_p prm)) acc_transcript s0 t0 /\ session E1 (sl_pc (odd_p prm)) (sl_bp (odd_p prm)) acc_transcript s1 t1.
  Lemma walk_honest oc L M prm set fuel height t i leaf evens odds os es :
    sl_good (even_p prm) -> sl_good (odd_p prm) -> sw_a P0 = 0 -> sw_a P1 = 0 ->
    from_set fuel L M prm set height = TOk t -> (N.of_nat (L ^ t_height t) < 2 ^ 64)%N -> (0 < M)%nat -> t_height t <> 0%nat ->
    nth_error set i = Some leaf -> tree_witness oc L t (N.of_nat i) 0 prm = Some (evens, odds) ->
    (forall k w, nth_error evens k = Some w -> admissible (odd_p prm) (w_child w) (os k)) -> (forall k w, nth_error odds k = Some w -> admissible (even_p prm) (w_child w) (es k)) ->
    exists s0 s1 path r, tree_prove E0 E1 enc0 enc1 oc L t (N.of_nat i) 0 (sl_pc (even_p prm)) (sl_pc (odd_p prm)) prm os es (p_new acc_transcript) (p_new acc_transcript) = Some (s0, s1, (path, r)) /\
      honest s0 /\ honest s1 /\ p_def s0 = [] /\ p_def s1 = [] /\ walked L prm t path s0 s1 /\ pa_selected path = vadd leaf (vsmul r (pcB_blinding (sl_pc (even_p prm)))).
  Proof.
    intros Hg0 Hg1 Ha0 Ha1 Ht Hc HM Hh Hleaf Hw Aos Aes. destruct (leaf_of_index oc L M prm set fuel height t i leaf evens odds Ht Hc HM Hleaf Hw) as (root & Hr & Ho).
    destruct (sr_total E0 E1 enc0 enc1 L prm root (t_height t) evens odds leaf os es _ _ Hg0 Hg1 Ha0 Ha1 Ho Aos Aes (honest_new acc_transcript) (honest_new acc_transcript)) as (s0 & s1 & p & r & Hp & Hh0 & Hh1 & _ & _ & Hd0 & Hd1).
    destruct (sr_lockstep E0 E1 enc0 enc1 true L prm t root (t_height t) evens odds leaf os es _ _ _ _ _ _ s0 s1 p r Hg0 Hg1 Hr Ho Hh (tree_witness_root _ _ _ _ _ _ _ _ Hw Hh) ltac:(reflexivity) (ses_new E0 _ _ acc_transcript) (ses_new E1 _ _ acc_transcript) Hp) as (t0 & t1 & Hv & S0 & S1 & Hsel).
    exists s0, s1, p, r. unfold tree_prove. rewrite Hw. cbn [opt_bind fst snd]. split; [exact Hp|]. split; [exact Hh0|]. split; [exact Hh1|]. split; [exact Hd0|]. split; [exact Hd1|]. split; [|exact Hsel].
    destruct (sr_verify_inv _ _ _ _ _ _ _ _ _ _ Hv) as (srv & V1 & V2 & V3 & _). exists srv, t0, t1. auto.
  Qed.
  Lemma walk_forged oc L M prm set fuel height t i leaf evens odds R os es :
    sl_good (even_p prm) -> sl_good (odd_p prm) -> sw_a P0 = 0 -> sw_a P1 = 0 ->
    from_set fuel L M prm set height = TOk t -> (N.of_nat (L ^ t_height t) < 2 ^ 64)%N -> (0 < M)%nat -> t_height t <> 0%nat ->
    nth_error set i = Some leaf -> tree_witness oc L t (N.of_nat i) 0 prm = Some (evens, odds) ->
    (forall k w, nth_error evens k = Some w -> admissible (odd_p prm) (w_child w) (os k)) -> (forall k w, nth_error odds k = Some w -> (k < length odds - 1)%nat -> admissible (even_p prm) (w_child w) (es k)) ->
    vadd leaf (sl_delta (even_p prm)) <> v0 -> ~ In R (unreachable (even_p prm) leaf) ->
    exists s0 s1 path, forge_path E0 E1 enc0 enc1 prm evens odds R os es (p_new acc_transcript) (p_new acc_transcript) = Some (s0, s1, path) /\
      honest s0 /\ honest s1 /\ p_def s0 = [] /\ p_def s1 = [] /\ walked L prm t path s0 s1 /\ pa_selected path = R.
  Proof.
    intros Hg0 Hg1 Ha0 Ha1 Ht Hc HM Hh Hleaf Hw Aos Aes HP HR. destruct (leaf_of_index oc L M prm set fuel height t i leaf evens odds Ht Hc HM Hleaf Hw) as (root & Hr & Ho).
    destruct (forged_total E0 E1 enc0 enc1 L prm root (t_height t) evens odds leaf R os es _ _ Hg0 Hg1 Ha0 Ha1 Ho Hh Aos Aes HP HR (honest_new acc_transcript) (honest_new acc_transcript)) as (s0 & s1 & p & Hp & Hh0 & Hh1 & _ & _ & Hd0 & Hd1).
    assert (Zos : forall j, (j < length evens)%nat -> os j <> 0). { intros j Hj. destruct (nth_error evens j) as [w|] eqn:Ew; [|apply nth_error_None in Ew; lia]. exact (admissible_nonzero _ _ _ Hg1 (Aos j w Ew)). }
    assert (Zes : forall j, (j < length odds - 1)%nat -> es j <> 0). { intros j Hj. destruct (nth_error odds j) as [w|] eqn:Ew; [|apply nth_error_None in Ew; lia]. exact (admissible_nonzero _ _ _ Hg0 (Aes j w Ew Hj)). }
    destruct (forged_lockstep E0 E1 enc0 enc1 true L prm t root (t_height t) evens odds leaf R os es _ _ _ _ _ _ s0 s1 p Hg0 Hg1 Hr Ho Hh (tree_witness_root _ _ _ _ _ _ _ _ Hw Hh) ltac:(reflexivity) Zos Zes (ses_new E0 _ _ acc_transcript) (ses_new E1 _ _ acc_transcript) Hp) as (t0 & t1 & Hv & S0 & S1).
    exists s0, s1, p. split; [exact Hp|]. split; [exact Hh0|]. split; [exact Hh1|]. split; [exact Hd0|]. split; [exact Hd1|].
    destruct (sr_verify_inv _ _ _ _ _ _ _ _ _ _ Hv) as (srv & V1 & V2 & V3 & Hsel). split; [exists srv, t0, t1; auto|exact Hsel].
  Qed.

  (** ** Acceptance *)
  Lemma acc_accepts dbg L prm t width e path srv (te : VState P0) (t1 : VState P1) pf0 pf1 rr0 ws0 rr1 ws1 :
    gens_wf (sl_bp (even_p prm)) -> gens_wf (sl_bp (odd_p prm)) -> verification_commitments t path = Some srv ->
    acc_even E0 enc1 L prm t width e srv (pa_selected path) = Some te -> v_def te = [] -> length (ipp_R (pipp pf0)) = length (ipp_L (pipp pf0)) ->
    (forall rr, r1cs_verify E0 dbg rr pf0 (sl_pc (even_p prm)) (sl_bp (even_p prm)) te = Some (Ok tt)) ->
    acc_odd E1 enc0 L prm t srv = Some t1 -> v_def t1 = [] -> length (ipp_R (pipp pf1)) = length (ipp_L (pipp pf1)) ->
    (forall rr, r1cs_verify E1 dbg rr pf1 (sl_pc (odd_p prm)) (sl_bp (odd_p prm)) t1 = Some (Ok tt)) ->
    length rr0 = S (length ws0) -> length rr1 = S (length ws1) ->
    acc_verify E0 E1 enc0 enc1 dbg L prm t width e path pf0 pf1 rr0 ws0 rr1 ws1 = Some tt.
  Proof.
    intros W0 W1 Hs He D0 L0 A0 Ho D1 L1 A1 N0 N1. unfold acc_verify.
    destruct (batch_copies E0 _ _ dbg pf0 te rr0 ws0 L0 D0 W0 A0 N0) as (vts0 & B0 & C0). destruct (batch_copies E1 _ _ dbg pf1 t1 rr1 ws1 L1 D1 W1 A1 N1) as (vts1 & B1 & C1).
    assert (X0 : map (acc_entry0 E0 enc1 dbg L prm t width e path pf0) rr0 = map (fun rr => unwrap (v_scalars_and_points E0 dbg rr pf0 te)) rr0).
    { apply map_ext. intros rr. unfold acc_entry0. rewrite Hs. cbn [opt_bind]. rewrite He. reflexivity. }
    assert (X1 : map (acc_entry1 E1 enc0 dbg L prm t path pf1) rr1 = map (fun rr => unwrap (v_scalars_and_points E1 dbg rr pf1 t1)) rr1).
    { apply map_ext. intros rr. unfold acc_entry1. rewrite Hs. cbn [opt_bind]. rewrite Ho. reflexivity. }
    rewrite X0, B0. cbn [opt_bind]. rewrite C0. cbn [unwrap opt_bind]. rewrite X1, B1. cbn [opt_bind]. rewrite C1. reflexivity.
  Qed.
  Lemma session_def {F : Field} {V : VSpace F} (E : TrEnv V) pc g tr s (t : VState V) : session E pc g tr s t -> p_def s = [] -> v_def t = [].
  Proof. intros Hs Hd. destruct (session_agree E pc g tr s t Hs) as [_ Ha]. pose proof (ag_def _ _ _ _ Ha) as H. rewrite Hd in H. inversion H. reflexivity. Qed.
  Lemma select_def (e : F0) us (t te : VState P0) : vrun E0 (select (lc_const e) (map lc_var us)) t = Some (te, tt) -> v_def te = v_def t.
  Proof. destruct us as [|u us]; [discriminate|]. cbn [map select]. rewrite loop_vrun. intros H. apply Some_inj in H. injection H as <-. reflexivity. Qed.
  Lemma good_verify {F : Field} {V : VSpace F} (E : TrEnv V) dbg rnd pc g tr s (t : VState V) pf : session E pc g tr s t -> p_def s = [] -> honest s -> gens_wf g -> (gens_capacity g < 2 ^ 32)%nat -> good_proof E dbg rnd pc g s pf ->
    length (ipp_R (pipp pf)) = length (ipp_L (pipp pf)) /\ forall dbg' rr, r1cs_verify E dbg' rr pf pc g t = Some (Ok tt).
  Proof.
    intros Hs Hd Hh Hw Hc [(trf & Hp) Hnz]. split; [eapply proof_lengths; exact Hp|]. intros dbg' rr. eapply C08_complete; try eassumption. apply honest_satisfies, Hh.
  Qed.
  Lemma acc_finish L prm t path s0 s1 elements r e s0' dbg0 rnd0 pf0 dbg1 rnd1 pf1 dbg rr0 ws0 rr1 ws1 :
    gens_wf (sl_bp (even_p prm)) -> (gens_capacity (sl_bp (even_p prm)) < 2 ^ 32)%nat -> gens_wf (sl_bp (odd_p prm)) -> (gens_capacity (sl_bp (odd_p prm)) < 2 ^ 32)%nat ->
    walked L prm t path s0 s1 -> honest s1 -> p_def s1 = [] -> acc_open (P1 := P1) E0 (sl_pc (even_p prm)) prm elements r e s0 = Some (s0', pa_selected path) -> honest s0' -> p_def s0' = [] ->
    good_proof E0 dbg0 rnd0 (sl_pc (even_p prm)) (sl_bp (even_p prm)) s0' pf0 -> good_proof E1 dbg1 rnd1 (sl_pc (odd_p prm)) (sl_bp (odd_p prm)) s1 pf1 ->
    length rr0 = S (length ws0) -> length rr1 = S (length ws1) ->
    acc_verify E0 E1 enc0 enc1 dbg L prm t (length elements) e path pf0 pf1 rr0 ws0 rr1 ws1 = Some tt.
  Proof.
    intros W0 B0 W1 B1 (srv & t0 & t1 & V1 & V2 & V3 & S0 & S1) Hh1 Hd1 Hop Hh0 Hd0 G0 G1 N0 N1.
    destruct (open_lockstep _ _ _ _ _ _ _ _ _ S0 Hop) as (t0' & Hv & S0').
    destruct (good_verify E0 dbg0 rnd0 _ _ _ _ _ pf0 S0' Hd0 Hh0 W0 B0 G0) as [L0 A0]. destruct (good_verify E1 dbg1 rnd1 _ _ _ _ _ pf1 S1 Hd1 Hh1 W1 B1 G1) as [L1 A1].
    eapply (acc_accepts dbg L prm t (length elements) e path srv t0' t1); eauto using session_def.
    unfold acc_even. rewrite V2. cbn [opt_bind]. exact Hv.
  Qed.
End Open.
