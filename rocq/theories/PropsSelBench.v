(** * The membership benches: C82 *)
From Verif Require Export SelBenchProofs PropsAcc PropsAccSound PropsSelBatch.
From Verif Require Import CSProofs UtilProofs Lockstep CSMore R1CS R1CSSpec R1CSProofs R1CSMain SoundSpec CircuitSize PropsSize Toy ToyCurve GadgetProofs CSLogic PropsGadgets PropsSingle PropsRerand PropsSelRerand SelBatch.
Local Open Scope F_scope.

(** ** C82: the benches verify honest proofs *)
(** With the feature [parallel]: for every tree of height at least one and every list of
    leaves, the prover builds the two circuits for all paths, every path shows a
    re-randomization of its leaf, and every pair of proofs of these circuits is accepted in
    batches of any size. *)
Theorem C82_naive_complete : forall (F0 F1 : PField) (P0 : SWCurve F1 F0) (P1 : SWCurve F0 F1) (E0 : TrEnv P0) (E1 : TrEnv P1) (enc0 : P0 -> bytes) (enc1 : P1 -> bytes)
    bp0 pc0 delta0 bp1 pc1 delta1 (prm : SRParams P0 P1) (L M : nat) (set : list P0) fuel height t oc jobs,
  sl_new bp0 pc0 delta0 = Some (even_p prm) -> sl_new bp1 pc1 delta1 = Some (odd_p prm) -> sw_a P0 = 0 -> sw_a P1 = 0 ->
  gens_wf bp0 -> (gens_capacity bp0 < 2 ^ 32)%nat -> gens_wf bp1 -> (gens_capacity bp1 < 2 ^ 32)%nat ->
  from_set fuel L M prm set height = TOk t -> (N.of_nat (L ^ t_height t) < 2 ^ 64)%N -> (0 < M)%nat -> t_height t <> 0%nat -> Forall (job_ok oc L prm set t) jobs ->
  exists s0 s1 paths, naive_circuits E0 E1 enc0 enc1 oc L prm t jobs (p_new bench_transcript) (p_new bench_transcript) = Some (s0, s1, paths) /\ Forall2 (shows prm set) jobs paths /\
    forall dbg0 rnd0 pf0 dbg1 rnd1 pf1, good_proof E0 dbg0 rnd0 pc0 bp0 s0 pf0 -> good_proof E1 dbg1 rnd1 pc1 bp1 s1 pf1 ->
    forall dbg rr0 ws0 rr1 ws1, length rr0 = S (length ws0) -> length rr1 = S (length ws1) ->
      naive_parallel E0 E1 enc0 enc1 dbg L prm t paths pf0 pf1 rr0 ws0 rr1 ws1 = Some tt.
Proof.
  intros F0 F1 P0 P1 E0 E1 enc0 enc1 bp0 pc0 delta0 bp1 pc1 delta1 prm L M set fuel height t oc jobs Hsl0 Hsl1 Ha0 Ha1 W0 B0 W1 B1 Ht Hc HM Hh HJ.
  destruct (sl_new_good _ _ _ _ Hsl0) as (Hg0 & Eb0 & Ep0 & _), (sl_new_good _ _ _ _ Hsl1) as (Hg1 & Eb1 & Ep1 & _). rewrite <- Eb0, <- Ep0, <- Eb1, <- Ep1 in *.
  destruct (naive_walk E0 E1 enc0 enc1 oc L M prm set fuel height t Hg0 Hg1 Ha0 Ha1 Ht Hc HM Hh jobs bench_transcript bench_transcript _ _ _ _ HJ (honest_new bench_transcript) (honest_new bench_transcript) eq_refl eq_refl (ses_new E0 _ _ bench_transcript) (ses_new E1 _ _ bench_transcript))
    as (s0 & s1 & paths & srvs & t0 & t1 & HC & Hh0 & Hh1 & Hd0 & Hd1 & Hs & He & Ho & S0 & S1 & Hsh & _).
  exists s0, s1, paths. split; [exact HC|]. split; [exact Hsh|]. intros dbg0 rnd0 pf0 dbg1 rnd1 pf1 G0 G1 dbg rr0 ws0 rr1 ws1 N0 N1.
  destruct (good_verify E0 dbg0 rnd0 _ _ _ _ _ pf0 S0 Hd0 Hh0 W0 B0 G0) as [L0 A0]. destruct (good_verify E1 dbg1 rnd1 _ _ _ _ _ pf1 S1 Hd1 Hh1 W1 B1 G1) as [L1 A1].
  destruct (batch_copies E0 _ _ dbg pf0 t0 rr0 ws0 L0 (session_def _ _ _ _ _ _ S0 Hd0) W0 (A0 dbg) N0) as (vts0 & X0 & C0). destruct (batch_copies E1 _ _ dbg pf1 t1 rr1 ws1 L1 (session_def _ _ _ _ _ _ S1 Hd1) W1 (A1 dbg) N1) as (vts1 & X1 & C1).
  assert (Y0 : map (naive_entry0 E0 enc1 dbg L prm t pf0 paths) rr0 = map (fun rr => unwrap (v_scalars_and_points E0 dbg rr pf0 t0)) rr0).
  { apply map_ext. intros rr. unfold naive_entry0. rewrite Hs. cbn [opt_bind]. rewrite He. reflexivity. }
  assert (Y1 : map (naive_entry1 E1 enc0 dbg L prm t pf1 paths) rr1 = map (fun rr => unwrap (v_scalars_and_points E1 dbg rr pf1 t1)) rr1).
  { apply map_ext. intros rr. unfold naive_entry1. rewrite Hs. cbn [opt_bind]. rewrite Ho. reflexivity. }
  unfold naive_parallel. rewrite Y0, X0. cbn [opt_bind]. rewrite C0. cbn [unwrap opt_bind]. rewrite Y1, X1. cbn [opt_bind]. rewrite C1. reflexivity.
Qed.

(** One copy of the proofs, with the feature: the bench accepts exactly when the paths can be
    completed to the root and the ordinary verifiers of both curves accept the circuits of
    all paths.  So no path and no proof is left out. *)
Lemma one_copy {F : Field} {V : VSpace F} (E : TrEnv V) dbg rr pf pc g (t : VState V) : (exists vts, all_some [unwrap (v_scalars_and_points E dbg rr pf t)] = Some vts /\ batch_verify vts [] pc g = Some (Ok tt)) <-> r1cs_verify E dbg rr pf pc g t = Some (Ok tt).
Proof.
  unfold r1cs_verify. split.
  - intros (vts & H & Hb). cbn [all_some] in H. destruct (unwrap (v_scalars_and_points E dbg rr pf t)) as [v|] eqn:U; [|discriminate H]. cbn [opt_bind] in H. apply Some_inj in H. subst vts. apply unwrap_ok in U. rewrite U. exact Hb.
  - intros H. destruct (v_scalars_and_points E dbg rr pf t) as [[v|]|]; [|discriminate H|discriminate H]. exists [v]. split; [reflexivity|].
    change (mega_check pc g ((length (vt_fixed v) - 2) / 2) (vt_points v) (vt_scalars v) (vt_fixed v) = Some (Ok tt)) in H. unfold batch_verify. cbn [batch_acc]. exact H.
Qed.
Theorem C82_both_checked : forall (F0 F1 : PField) (P0 : SWCurve F1 F0) (P1 : SWCurve F0 F1) (E0 : TrEnv P0) (E1 : TrEnv P1) (enc0 : P0 -> bytes) (enc1 : P1 -> bytes)
    dbg L (prm : SRParams P0 P1) t paths pf0 pf1 rr0 rr1,
  naive_parallel E0 E1 enc0 enc1 dbg L prm t paths pf0 pf1 [rr0] [] [rr1] [] = Some tt <->
  exists srvs t0 t1, Forall2 (fun path srv => verification_commitments t path = Some srv) paths srvs /\
    naive_even E0 enc1 L prm t srvs (v_new bench_transcript) = Some t0 /\ naive_odd E1 enc0 L prm t srvs (v_new bench_transcript) = Some t1 /\
    r1cs_verify E0 dbg rr0 pf0 (sl_pc (even_p prm)) (sl_bp (even_p prm)) t0 = Some (Ok tt) /\ r1cs_verify E1 dbg rr1 pf1 (sl_pc (odd_p prm)) (sl_bp (odd_p prm)) t1 = Some (Ok tt).
Proof.
  intros. unfold naive_parallel, naive_entry0, naive_entry1. cbn [map]. split.
  - intros H. destruct (all_some (map (verification_commitments t) paths)) as [srvs|] eqn:Es; [|discriminate H]. cbn [opt_bind] in H.
    destruct (naive_even E0 enc1 L prm t srvs _) as [t0|] eqn:E; [|discriminate H]. cbn [opt_bind] in H.
    match type of H with opt_bind ?o _ = _ => destruct o as [vts0|] eqn:X0; [|discriminate H] end. cbn [opt_bind] in H. destruct (unwrap (batch_verify vts0 _ _ _)) as [[]|] eqn:C0; [|discriminate H]. cbn [opt_bind] in H.
    destruct (naive_odd E1 enc0 L prm t srvs _) as [t1|] eqn:O; [|discriminate H]. cbn [opt_bind] in H.
    match type of H with opt_bind ?o _ = _ => destruct o as [vts1|] eqn:X1; [|discriminate H] end. cbn [opt_bind] in H. apply unwrap_ok in H, C0.
    exists srvs, t0, t1. split; [|split; [exact E|]; split; [exact O|]; split; apply one_copy; eauto].
    apply all_some_spec in Es. clear - Es. revert srvs Es. induction paths as [|p ps IH]; intros srvs H; inversion H; subst; constructor; auto.
  - intros (srvs & t0 & t1 & Hs & E & O & V0 & V1). assert (Es : all_some (map (verification_commitments t) paths) = Some srvs).
    { clear - Hs. induction Hs as [|p srv ps srvs H _ IH]; [reflexivity|]. cbn [map all_some]. rewrite H. cbn [opt_bind]. rewrite IH. reflexivity. }
    rewrite Es. cbn [opt_bind]. rewrite E, O. cbn [opt_bind]. apply one_copy in V0 as (vts0 & X0 & C0), V1 as (vts1 & X1 & C1). rewrite X0. cbn [opt_bind]. rewrite C0. cbn [unwrap opt_bind]. rewrite X1. cbn [opt_bind]. rewrite C1. reflexivity.
Qed.

(** With a single path (select_rerandomize.rs) the two branches verify the same, honest
    proof or not. *)
Theorem C82_one_path_same : forall (F0 F1 : PField) (P0 : SWCurve F1 F0) (P1 : SWCurve F0 F1) (E0 : TrEnv P0) (E1 : TrEnv P1) (enc0 : P0 -> bytes) (enc1 : P1 -> bytes)
    dbg L (prm : SRParams P0 P1) t path pf0 pf1 rr0 ws0 rr1 ws1,
  naive_sequential E0 E1 enc0 enc1 dbg L prm t [path] pf0 pf1 (map (fun r => [r]) rr0) ws0 (map (fun r => [r]) rr1) ws1 = naive_parallel E0 E1 enc0 enc1 dbg L prm t [path] pf0 pf1 rr0 ws0 rr1 ws1.
Proof.
  intros. unfold naive_sequential, naive_parallel.
  assert (H : forall A B (f : list (Path P0 P1) -> A -> B) (l : list A), flat_map (fun rrs => map (fun x => f [fst x] (snd x)) (combine [path] rrs)) (map (fun r => [r]) l) = map (f [path]) l).
  { induction l as [|a l IH]; [reflexivity|]. cbn in *. rewrite IH. reflexivity. }
  rewrite (H _ _ (naive_entry0 E0 enc1 dbg L prm t pf0)), (H _ _ (naive_entry1 E1 enc0 dbg L prm t pf1)). reflexivity.
Qed.

(** Refuted: the bench without the feature [parallel] verifies the same proofs.  With two
    or more paths it checks the proof for all paths against the circuit of one of them and
    panics, for all honest proofs, whatever the randomness is. *)
Theorem C82_sequential_refuted : forall (F0 F1 : PField) (P0 : SWCurve F1 F0) (P1 : SWCurve F0 F1) (E0 : TrEnv P0) (E1 : TrEnv P1) (enc0 : P0 -> bytes) (enc1 : P1 -> bytes)
    bp0 pc0 delta0 bp1 pc1 delta1 (prm : SRParams P0 P1) (L M : nat) (set : list P0) fuel height t oc jobs s0 s1 paths dbg0 rnd0 pf0 dbg1 rnd1 pf1,
  sl_new bp0 pc0 delta0 = Some (even_p prm) -> sl_new bp1 pc1 delta1 = Some (odd_p prm) -> sw_a P0 = 0 -> sw_a P1 = 0 ->
  gens_wf bp1 -> (gens_capacity bp1 < 2 ^ 32)%nat ->
  from_set fuel L M prm set height = TOk t -> (N.of_nat (L ^ t_height t) < 2 ^ 64)%N -> (0 < M)%nat -> t_height t <> 0%nat -> Forall (job_ok oc L prm set t) jobs -> (2 <= length jobs)%nat ->
  naive_circuits E0 E1 enc0 enc1 oc L prm t jobs (p_new bench_transcript) (p_new bench_transcript) = Some (s0, s1, paths) ->
  good_proof E0 dbg0 rnd0 pc0 bp0 s0 pf0 -> good_proof E1 dbg1 rnd1 pc1 bp1 s1 pf1 ->
  forall dbg rr0 ws0 r rs rr1 ws1, naive_sequential E0 E1 enc0 enc1 dbg L prm t paths pf0 pf1 rr0 ws0 ((r :: rs) :: rr1) ws1 = None.
Proof.
  intros F0 F1 P0 P1 E0 E1 enc0 enc1 bp0 pc0 delta0 bp1 pc1 delta1 prm L M set fuel height t oc jobs s0 s1 paths dbg0 rnd0 pf0 dbg1 rnd1 pf1 Hsl0 Hsl1 Ha0 Ha1 W1 B1 Ht Hc HM Hh HJ H2 HC _ G1 dbg rr0 ws0 r rs rr1 ws1.
  pose proof (from_set_width _ _ _ _ _ _ _ Ht) as Hw. pose proof (sl_new_countable _ _ _ _ Hsl0) as Cn.
  destruct (sl_new_good _ _ _ _ Hsl0) as (Hg0 & Eb0 & Ep0 & _), (sl_new_good _ _ _ _ Hsl1) as (Hg1 & Eb1 & Ep1 & _). rewrite <- Eb1, <- Ep1 in *.
  destruct jobs as [|j1 [|j2 jobs]]; cbn [length] in H2; try lia. pose proof HJ as HJ1. apply Forall_cons_iff in HJ1 as [HJ1 _].
  pose proof (fun js HJ => naive_walk E0 E1 enc0 enc1 oc L M prm set fuel height t Hg0 Hg1 Ha0 Ha1 Ht Hc HM Hh js bench_transcript bench_transcript _ _ _ _ HJ (honest_new bench_transcript) (honest_new bench_transcript) eq_refl eq_refl (ses_new E0 _ _ bench_transcript) (ses_new E1 _ _ bench_transcript)) as Walk.
  destruct (Walk _ HJ) as (s0' & s1' & paths' & srvs & t0 & t1 & HC' & _ & Hh1 & _ & Hd1 & Hs & _ & Ho & _ & S1 & Hsh & Hl). rewrite HC in HC'. apply Some_inj in HC'. injection HC' as <- <- <-.
  destruct (Walk [j1] ltac:(repeat constructor; assumption)) as (s0' & s1' & paths' & srvs1 & u0 & u1 & HC1 & _ & _ & _ & Hd1' & Hs1 & _ & Ho1 & _ & S1' & Hsh1 & Hl1). clear Walk.
  (* the first path is the same in both runs *)
  assert (exists p ps, paths = p :: ps /\ paths' = [p]) as (p & ps & -> & ->).
  { destruct j1 as [[index os] es]. cbn [naive_circuits] in HC, HC1. destruct (tree_prove _ _ _ _ _ _ _ _ _ _ _ _ _ _ _ _) as [[[a b] [p q]]|]; [|discriminate HC]. cbn [opt_bind] in HC, HC1. apply Some_inj in HC1. injection HC1 as _ _ <-.
    destruct j2 as [[index2 os2] es2]. cbn [naive_circuits] in HC. destruct (tree_prove _ _ _ _ _ _ _ _ _ _ _ _ _ _ _ _) as [[[a2 b2] [p2 q2]]|]; [|discriminate HC]. cbn [opt_bind] in HC.
    destruct (naive_circuits _ _ _ _ _ _ _ _ jobs _ _) as [[[a3 b3] ps]|]; [|discriminate HC]. cbn [opt_bind] in HC. apply Some_inj in HC. injection HC as _ _ <-. eauto. }
  pose proof (naive_odd_size E1 enc0 L prm t _ Hw Cn _ _ _ Hl Ho) as Z. pose proof (naive_odd_size E1 enc0 L prm t _ Hw Cn _ _ _ Hl1 Ho1) as Z1.
  assert (Len : length srvs = S (S (length jobs))). { apply all_some_spec, Forall2_len in Hs. rewrite map_length in Hs. rewrite <- Hs. apply Forall2_len in Hsh. symmetry. exact Hsh. }
  assert (Len1 : length srvs1 = 1%nat). { apply all_some_spec, Forall2_len in Hs1. symmetry. exact Hs1. }
  rewrite Len in Z. rewrite Len1, Nat.mul_1_l in Z1. set (H := ((t_height t + 1) / 2 * level_halves L (windows (S := F0)))%nat) in *.
  assert (HH : (12 <= H)%nat). { unfold H, level_halves. assert (1 <= (t_height t + 1) / 2)%nat by (apply Nat.div_le_lower_bound; lia). nia. }
  (* the odd entry of the first path *)
  assert (Hno : naive_entry1 E1 enc0 dbg L prm t pf1 [p] r = None).
  { unfold naive_entry1. rewrite Hs1. cbn [opt_bind]. rewrite Ho1. cbn [opt_bind]. destruct (v_scalars_and_points E1 dbg r pf1 u1) as [[vt|e]|] eqn:Ev; try reflexivity. exfalso.
    destruct (good_tuple E1 dbg1 rnd1 _ _ _ _ _ pf1 dbg r S1 Hd1 Hh1 W1 B1 G1) as (vt' & Ev' & _).
    pose proof (tuple_size E1 _ _ _ _ _ (session_def _ _ _ _ _ _ S1' Hd1') Ev) as P. pose proof (tuple_size E1 _ _ _ _ _ (session_def _ _ _ _ _ _ S1 Hd1) Ev') as P'.
    assert (Sz1 : v_size u1 = v_num u1).
    { destruct srvs1 as [|srv [|? ?]]; try discriminate Len1. cbn [naive_odd] in Ho1. destruct (odd_gadget E1 enc0 L prm t srv _) as [u|] eqn:Eo; [|discriminate Ho1]. cbn [opt_bind] in Ho1. apply Some_inj in Ho1. subst u.
      cbn [map all_some] in Hs1. destruct (verification_commitments t p) as [q|] eqn:Ec; [|discriminate Hs1]. cbn [opt_bind] in Hs1. apply Some_inj in Hs1. injection Hs1 as ->.
      destruct (odd_path_size E1 enc0 L prm t p srv _ _ _ Hw Cn Ec eq_refl Eo) as [Q _]. rewrite Q. apply fresh_num in Z1. rewrite Z1. unfold levels_size, H, level_halves.
      rewrite <- (proj1 (proj2 (completed_counts _ _ _ _ Ec eq_refl))). apply Forall_cons_iff in Hl1 as [-> _]. reflexivity. }
    assert (Ge : (v_num t1 <= v_size t1)%nat). { apply size_at_least. left. lia. }
    apply fresh_num in Z1. assert (Sp : (2 * v_num t1 >= 2 * H)%nat). { unfold spare, v_new in Z. cbn [v_pend v_num] in Z. nia. }
    assert (La : (2 * v_num u1 - 1 <= H /\ 2 <= v_num u1)%nat). { rewrite Z1. pose proof (Nat.div_mod (H + 1) 2 ltac:(lia)). pose proof (Nat.mod_upper_bound (H + 1) 2 ltac:(lia)). lia. }
    apply (pads_differ (v_size u1) (v_size t1)); [lia|lia|congruence]. }
  unfold naive_sequential. cbn [flat_map combine map fst snd app all_some]. rewrite Hno. cbn [opt_bind].
  match goal with |- opt_bind ?o _ = None => destruct o as [vts0|]; [|reflexivity] end. cbn [opt_bind]. destruct (unwrap _); reflexivity.
Qed.

(** The batched proof (both branches): honest proofs are accepted in batches of any size. *)
Theorem C82_grafted_complete : forall (F0 F1 : PField) (P0 : SWCurve F1 F0) (P1 : SWCurve F0 F1) (E0 : TrEnv P0) (E1 : TrEnv P1) (enc0 : P0 -> bytes)
    bp0 pc0 delta0 bp1 pc1 delta1 (prm : SRParams P0 P1) (L : nat) (set : list P0) fuel height t oc indices evens odds os es ls,
  sl_new bp0 pc0 delta0 = Some (even_p prm) -> sl_new bp1 pc1 delta1 = Some (odd_p prm) -> sw_a P0 = 0 -> sw_a P1 = 0 ->
  gens_wf bp0 -> (gens_capacity bp0 < 2 ^ 32)%nat -> gens_wf bp1 -> (gens_capacity bp1 < 2 ^ 32)%nat ->
  from_set fuel L (length indices) prm set height = TOk t -> (N.of_nat (L ^ t_height t) < 2 ^ 64)%N -> t_height t <> 0%nat ->
  multi_witness oc L t indices prm = Some (evens, odds) ->
  (forall i nd, nth_error evens i = Some nd -> badmissible (odd_p prm) (map w_child nd) (os i)) ->
  (forall i nd, nth_error (removelast odds) i = Some nd -> badmissible (even_p prm) (map w_child nd) (es i)) ->
  (forall j w, nth_error (last odds []) j = Some w -> admissible (even_p prm) (w_child w) (ls j)) ->
  exists s0 s1 p rs leaves, mtree_prove E0 E1 enc0 oc L t indices pc0 pc1 prm os es ls (p_new bench_transcript) (p_new bench_transcript) = Some (s0, s1, (p, rs)) /\
    Forall2 (fun i leaf => nth_error set (N.to_nat (i mod N.of_nat (L ^ t_height t))) = Some leaf) indices leaves /\ mp_selected p = zipw (fun leaf r => vadd leaf (vsmul r (pcB_blinding pc0))) leaves rs /\
    forall dbg0 rnd0 pf0 dbg1 rnd1 pf1, good_proof E0 dbg0 rnd0 pc0 bp0 s0 pf0 -> good_proof E1 dbg1 rnd1 pc1 bp1 s1 pf1 ->
    forall dbg rr0 ws0 rr1 ws1, length rr0 = S (length ws0) -> length rr1 = S (length ws1) ->
      grafted_verify E0 E1 enc0 dbg L (length indices) prm t p pf0 pf1 rr0 ws0 rr1 ws1 = Some tt.
Proof.
  intros F0 F1 P0 P1 E0 E1 enc0 bp0 pc0 delta0 bp1 pc1 delta1 prm L set fuel height t oc indices evens odds os es ls Hsl0 Hsl1 Ha0 Ha1 W0 B0 W1 B1 Ht Hc Hh Hw Aos Aes Als.
  destruct (sl_new_good _ _ _ _ Hsl0) as (Hg0 & Eb0 & Ep0 & _), (sl_new_good _ _ _ _ Hsl1) as (Hg1 & Eb1 & Ep1 & _). rewrite <- Eb0, <- Ep0, <- Eb1, <- Ep1 in *.
  destruct (multi_witness_paths L prm set fuel height t oc indices evens odds Ht Hc Hh Hw) as (ws & leaves & n & m & Hl & Hne & Hok & Hlv & T1 & T2 & Hn & Hm & Hpar). pose proof (proj1 (from_set_ok _ _ _ _ _ _ _ Ht)) as HL.
  destruct (msr_total E0 E1 enc0 L prm t (t_height t) ws leaves n m evens odds os es ls _ _ HL Hg0 Hg1 Ha0 Ha1 Hne Hok Hh T1 T2 Hn Hm Hpar Aos Aes Als (honest_new bench_transcript) (honest_new bench_transcript)) as (s0 & s1 & p & rs & Hp & Hh0 & Hh1 & _ & _ & Hd0 & Hd1).
  destruct (msr_lockstep E0 E1 enc0 false L prm t (t_height t) ws leaves n m evens odds os es ls _ _ _ _ _ _ s0 s1 p rs
    HL Hg0 Hg1 Hne Hok Hh T1 T2 Hn Hm Hpar ltac:(reflexivity) (ses_new E0 _ _ bench_transcript) (ses_new E1 _ _ bench_transcript) Hp) as (t0 & t1 & Hv & S0 & S1 & Hsel & Hrs).
  assert (Hz : mp_selected p = zipw (fun leaf r => vadd leaf (vsmul r (pcB_blinding (sl_pc (even_p prm))))) leaves rs).
  { rewrite Hsel, Hrs. pose proof (proj1 Hok) as Hll. rewrite <- Hll. clear. generalize 0%nat. induction leaves as [|l leaves IH]; intros i; cbn [imap length seq map zipw]; [reflexivity|]. rewrite IH. reflexivity. }
  exists s0, s1, p, rs, leaves. unfold mtree_prove. rewrite Hw. cbn [opt_bind fst snd]. rewrite <- Hl. split; [exact Hp|]. split; [exact Hlv|]. split; [exact Hz|].
  intros dbg0 rnd0 pf0 dbg1 rnd1 pf1 G0 G1 dbg rr0 ws0 rr1 ws1 N0 N1. unfold grafted_verify. rewrite Hv. cbn [opt_bind].
  destruct (good_verify E0 dbg0 rnd0 _ _ _ _ _ pf0 S0 Hd0 Hh0 W0 B0 G0) as [L0 A0]. destruct (good_verify E1 dbg1 rnd1 _ _ _ _ _ pf1 S1 Hd1 Hh1 W1 B1 G1) as [L1 A1].
  destruct (batch_copies E0 _ _ dbg pf0 t0 rr0 ws0 L0 (session_def _ _ _ _ _ _ S0 Hd0) W0 (A0 dbg) N0) as (vts0 & X0 & C0). destruct (batch_copies E1 _ _ dbg pf1 t1 rr1 ws1 L1 (session_def _ _ _ _ _ _ S1 Hd1) W1 (A1 dbg) N1) as (vts1 & X1 & C1).
  rewrite X0. cbn [opt_bind]. rewrite C0. cbn [unwrap opt_bind]. rewrite X1. cbn [opt_bind]. rewrite C1. reflexivity.
Qed.
Print Assumptions C82_naive_complete.
Print Assumptions C82_both_checked.
Print Assumptions C82_one_path_same.
Print Assumptions C82_sequential_refuted.
Print Assumptions C82_grafted_complete.

(** ** The hypotheses are satisfiable: two paths in a tree with five leaves over the toy cycle *)
(* test data or vocabulary of statements, no code modelled *)
Definition toy_jobs : list (N * (nat -> PF139) * (nat -> PF163)) := [(3%N, toy_os, toy_es); (4%N, fun i => toy_os (i + 3)%nat, fun i => toy_es (i + 2)%nat)].
(* test data or vocabulary of statements, no code modelled *)
Definition with_jobs (f : SRParams TC0 TC1 -> CurveTree TC0 TC1 -> bool) : bool :=
  match sl_new pos0 toy_pcg toy_delta, sl_new pos1 toy_pcg1 toy_delta1 with
  | Some a, Some b => match from_set 6 2 2 (mkSRP a b) toy_set None with TOk t => f (mkSRP a b) t | _ => false end
  | _, _ => false end.
Lemma with_jobs_spec f : with_jobs f = true -> exists prm t, sl_new pos0 toy_pcg toy_delta = Some (even_p prm) /\ sl_new pos1 toy_pcg1 toy_delta1 = Some (odd_p prm) /\ from_set 6 2 2 prm toy_set None = TOk t /\ f prm t = true.
Proof.
  unfold with_jobs. intros H. destruct (sl_new pos0 toy_pcg toy_delta) as [a|]; [|discriminate H]. destruct (sl_new pos1 toy_pcg1 toy_delta1) as [b|]; [|discriminate H].
  destruct (from_set 6 2 2 (mkSRP a b) toy_set None) as [t| |] eqn:Et; try discriminate H. exists (mkSRP a b), t. repeat split; assumption.
Qed.
(* test data or vocabulary of statements, no code modelled *)
Definition job_b (prm : SRParams TC0 TC1) (t : CurveTree TC0 TC1) (job : N * (nat -> PF139) * (nat -> PF163)) : bool :=
  let '(index, os, es) := job in match tree_witness true 2 t index 0 prm with Some (e, o) => adm_all (odd_p prm) os e && adm_all (even_p prm) es o && (N.to_nat index <? length toy_set)%nat | None => false end.
Lemma job_b_spec prm t job : job_b prm t job = true -> job_ok true 2 prm toy_set t job.
Proof.
  destruct job as [[index os] es]. unfold job_b, job_ok. destruct (tree_witness true 2 t index 0 prm) as [[e o]|] eqn:Ew; [|discriminate]. intros H. apply andb_prop in H as [H Hi]. apply andb_prop in H as [He Ho].
  apply Nat.ltb_lt, nth_error_Some in Hi. destruct (nth_error toy_set (N.to_nat index)) as [leaf|] eqn:El; [|congruence]. exists (N.to_nat index), leaf, e, o. rewrite N2Nat.id. split; [reflexivity|]. split; [exact El|]. split; [reflexivity|].
  split; apply adm_all_spec; assumption.
Qed.
Example C82_demo : exists (prm : SRParams TC0 TC1) t s0 s1 paths, from_set 6 2 2 prm toy_set None = TOk t /\ t_height t = 3%nat /\ Forall (job_ok true 2 prm toy_set t) toy_jobs /\
  naive_circuits EE0 EE1 ec0 ec1 true 2 prm t toy_jobs (p_new bench_transcript) (p_new bench_transcript) = Some (s0, s1, paths) /\ length paths = 2%nat /\
  forall dbg0 rnd0 pf0 dbg1 rnd1 pf1, good_proof EE0 dbg0 rnd0 toy_pcg pos0 s0 pf0 -> good_proof EE1 dbg1 rnd1 toy_pcg1 pos1 s1 pf1 ->
    naive_parallel EE0 EE1 ec0 ec1 true 2 prm t paths pf0 pf1 [f163 3; f163 4] [f163 5] [f139 3; f139 4] [f139 5] = Some tt /\
    naive_sequential EE0 EE1 ec0 ec1 true 2 prm t paths pf0 pf1 [[f163 3; f163 4]] [f163 5] [[f139 3; f139 4]] [f139 5] = None.
Proof.
  destruct (with_jobs_spec (fun prm t => (t_height t =? 3)%nat && forallb (job_b prm t) toy_jobs)%bool ltac:(vm_compute; reflexivity)) as (prm & t & H0 & H1 & Ht & H). apply andb_prop in H as [Hh HJ]. apply Nat.eqb_eq in Hh.
  assert (HJ' : Forall (job_ok true 2 prm toy_set t) toy_jobs). { rewrite forallb_forall in HJ. apply Forall_forall. intros j Hj. apply job_b_spec, HJ, Hj. }
  destruct (C82_naive_complete _ _ TC0 TC1 EE0 EE1 ec0 ec1 pos0 toy_pcg toy_delta pos1 toy_pcg1 toy_delta1 prm 2 2 toy_set 6 None t true toy_jobs
    H0 H1 eq_refl eq_refl (gens_wf_new _ _ _ _ _) cap_256 (gens_wf_new _ _ _ _ _) cap_256 Ht ltac:(rewrite Hh; vm_compute; reflexivity) ltac:(lia) ltac:(rewrite Hh; discriminate) HJ') as (s0 & s1 & paths & HC & Hsh & Hv).
  exists prm, t, s0, s1, paths. split; [exact Ht|]. split; [exact Hh|]. split; [exact HJ'|]. split; [exact HC|]. split; [apply Forall2_len in Hsh; symmetry; exact Hsh|]. intros dbg0 rnd0 pf0 dbg1 rnd1 pf1 G0 G1. split.
  - eapply Hv; try eassumption; reflexivity.
  - eapply (C82_sequential_refuted _ _ TC0 TC1 EE0 EE1 ec0 ec1 pos0 toy_pcg toy_delta pos1 toy_pcg1 toy_delta1 prm 2 2 toy_set 6 None t true toy_jobs s0 s1 paths); try eassumption; try reflexivity;
      [apply gens_wf_new|exact cap_256|rewrite Hh; vm_compute; reflexivity|lia|rewrite Hh; discriminate].
Qed.
(** The proofs are made and verified (a test when this file is compiled): accepted with the
    feature, a panic without it. *)
Definition C82_run_value : bool := Eval vm_compute in with_jobs (fun prm t =>
  match naive_prove EE0 EE1 ec0 ec1 true true (toy_rnd PM163) (toy_rnd PM139) 2 prm t toy_jobs with
  | Some (paths, pf0, pf1) => negb (is_none (naive_parallel EE0 EE1 ec0 ec1 true 2 prm t paths pf0 pf1 [f163 3; f163 4] [f163 5] [f139 3; f139 4] [f139 5])) &&
      is_none (naive_sequential EE0 EE1 ec0 ec1 true 2 prm t paths pf0 pf1 [[f163 3; f163 4]] [f163 5] [[f139 3; f139 4]] [f139 5])
  | None => false end)%bool.
Example C82_run_test : C82_run_value = true.
Proof. reflexivity. Qed.
(** One copy (both sides of [C82_both_checked]): accepted as made, refused with the paths in
    another order, with one path left out, and with a changed scalar in the second proof. *)
Definition C82_both_value : bool := Eval vm_compute in with_jobs (fun prm t =>
  match naive_prove EE0 EE1 ec0 ec1 true true (toy_rnd PM163) (toy_rnd PM139) 2 prm t toy_jobs with
  | Some (paths, pf0, pf1) =>
      let check ps q0 q1 := negb (is_none (naive_parallel EE0 EE1 ec0 ec1 true 2 prm t ps q0 q1 [f163 3] [] [f139 3] [])) in
      let bad := mkProof (A_I1 pf1) (A_O1 pf1) (S1 pf1) (A_I2 pf1) (A_O2 pf1) (S2 pf1) (pT pf1) (pt_x pf1 + 1) (pt_x_blinding pf1) (pe_blinding pf1) (pipp pf1) in
      check paths pf0 pf1 && negb (check (rev paths) pf0 pf1) && negb (check (firstn 1 paths) pf0 pf1) && negb (check paths pf0 bad)
  | None => false end)%bool.
Example C82_both_test : C82_both_value = true.
Proof. reflexivity. Qed.
(** scalars for the batched proof below, no code modelled *)
Definition grafted_os (i : nat) : PF139 := toy_os (i + 1).
(** One batched proof for two leaves. *)
Definition C82_grafted_value : bool := Eval vm_compute in with_mtree [3; 2]%N (fun prm t e o =>
  match mtree_prove EE0 EE1 ec0 true 2 t [3; 2]%N toy_pcg toy_pcg1 prm grafted_os toy_es toy_ls (p_new bench_transcript) (p_new bench_transcript) with
  | Some (s0, s1, (p, _)) => match r1cs_prove EE0 true (toy_rnd PM163) toy_pcg huge0 s0, r1cs_prove EE1 true (toy_rnd PM139) toy_pcg1 huge1 s1 with
    | Some (Ok (pf0, _)), Some (Ok (pf1, _)) => negb (is_none (grafted_verify EE0 EE1 ec0 true 2 2 prm t p pf0 pf1 [f163 3; f163 4] [f163 5] [f139 3; f139 4] [f139 5])) && badm_all (odd_p prm) grafted_os e && badm_all (even_p prm) toy_es (removelast o) && adm_all (even_p prm) toy_ls (last o [])
    | _, _ => false end
  | None => false end)%bool.
Example C82_grafted_test : C82_grafted_value = true.
Proof. reflexivity. Qed.
