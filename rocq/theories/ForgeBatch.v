(** * A prover that shows several points that are not in the tree in one batched proof *)
From Verif Require Export SelBatch ForgePath.
From Verif Require Import CSProofs UtilProofs Lockstep CSMore.
Local Open Scope F_scope.

(** ** The attacker

    No code of the repository is modelled in this section: it is
    batched_curve_tree_prover.rs 134-292 with other witnesses for the leaves. *)
Section Attack.
  Context {F0 F1 : PField} {P0 : SWCurve F1 F0} {P1 : SWCurve F0 F1}.
  Variables (E0 : TrEnv P0) (E1 : TrEnv P1) (enc0 : P0 -> bytes).

  (** The loop over the leaves as in [leaves_loop].  The i-th public point is [nth i Rs]; the
      accumulator of its re-randomization starts at the difference to the leaf, all digits
      are zero. *)
  Fixpoint forged_loop (prm : SLParams P0) (Rs : list P0) (nodes : list (Wit F1 P0)) (i : nat) (chunks : list (list (LC F1))) : Prog F1 unit :=
    match chunks with
    | [] => PRet tt
    | chunk :: chunks' =>
      punwrap (nth_error Rs i) (fun R =>
      punwrap (nth_error nodes i) (fun w =>
      let P := vadd (w_child w) (sl_delta prm) in
      pbind (pbind (single_level_from false (vsub (vadd R (sl_delta prm)) P) enc0 prm R chunk (Some P) (Some 0)) (fun _ => PRet tt)) (fun _ =>
      forged_loop prm Rs nodes (i + 1) chunks')))
    end.
  (* part of the attack, no code modelled *)
  Definition forged_leaves (M : nat) (prm : SLParams P0) (Rs : list P0) (nodes : list (Wit F1 P0)) (vars : list (LC F1)) : Prog F1 unit :=
    let k := (length vars / M)%nat in
    if ((M =? 0) || (k =? 0))%nat then PPanic else forged_loop prm Rs nodes 0 (chunks_exact (length vars) k vars).
  (** The levels of the odd curve: honest except for the last one. *)
  Definition forged_m_levels (M : nat) (prm : SRParams P0 P1) (top : bool) (odds : list (list (Wit F1 P0))) (Rs : list P0) (odd_scalars : nat -> F1) (even_scalars : nat -> F0) : list (PLevel F1) :=
    imap (fun i ws =>
      if (i <? length odds - 1)%nat then batched_level M (even_p prm) (parent_scalar top odd_scalars i) (even_scalars i) ws
      else mkPL (concat (map w_siblings ws)) (parent_scalar top odd_scalars i) (forged_leaves M (even_p prm) Rs ws)) 0 odds.
  (* part of the attack, no code modelled *)
  Definition forge_mpath (M : nat) (prm : SRParams P0 P1) (evens : list (list (Wit F0 P1))) (odds : list (list (Wit F1 P0))) (Rs : list P0)
    (odd_scalars : nat -> F1) (even_scalars : nat -> F0) (s0 : PState F0) (s1 : PState F1) : option (PState F0 * PState F1 * MPath P0 P1) :=
    do top <- root_is_even evens odds;
    do s0' <- prove_levels E0 (sl_pc (even_p prm)) (sl_bp (even_p prm)) s0 (m_even_levels M prm top evens odd_scalars even_scalars);
    do s1' <- prove_levels E1 (sl_pc (odd_p prm)) (sl_bp (odd_p prm)) s1 (forged_m_levels M prm (negb top) odds Rs odd_scalars even_scalars);
    Some (s0', s1', mkMPath Rs (imap (fun i ws => rerandomized_sum (odd_p prm) ws (odd_scalars i)) 0 evens)
                               (imap (fun i ws => rerandomized_sum (even_p prm) ws (even_scalars i)) 0 (removelast odds))).
End Attack.

Section Lemmas.
  Context {F0 F1 : PField} {P0 : SWCurve F1 F0} {P1 : SWCurve F0 F1}.
  Variables (E0 : TrEnv P0) (E1 : TrEnv P1) (enc0 : P0 -> bytes).
  Implicit Types (prm : SRParams P0 P1) (t : CurveTree P0 P1).

  Lemma forged_leaves_sim M (prm : SLParams P0) Rs nodes vars : simg eq (forged_leaves enc0 M prm Rs nodes vars) (leaves_gadget M enc0 prm Rs None vars).
  Proof.
    unfold forged_leaves, leaves_gadget. destruct ((M =? 0) || (length vars / M =? 0))%nat; [constructor|].
    generalize (chunks_exact (length vars) (length vars / M) vars) as chunks. intros chunks. generalize 0%nat. induction chunks as [|c chunks IH]; intros i; cbn [forged_loop leaves_loop]; [constructor; reflexivity|].
    destruct (nth_error Rs i) as [R|]; cbn [punwrap]; [|constructor]. destruct (nth_error nodes i) as [w|]; cbn [punwrap option_map]; [|constructor]. cbv zeta.
    eapply simg_bind; [apply forged_sim|]. intros ? ? _. apply IH.
  Qed.
  Lemma forged_loop_total {n} (prm0 : SLParams P0) (prm1 : SLParams P1) L qs Rs : sl_good prm0 -> sw_a P0 = 0 -> forall (ws ws0 : list (Wit F1 P0)) chunks i s, skipn i ws0 = ws -> nodes_ok L prm1 prm0 qs ws0 ->
    (forall j w, nth_error ws0 j = Some w -> vadd (w_child w) (sl_delta prm0) <> v0 /\ exists R, nth_error Rs j = Some R /\ ~ In R (unreachable prm0 (w_child w))) ->
    honest_from n s -> Forall (Forall (lc_ok (issued s))) chunks -> map (map (lc_val (p_asg s))) chunks = map w_siblings ws ->
    exists s', prun E1 (forged_loop enc0 prm0 Rs ws0 i chunks) s = Some (s', tt) /\ honest_from n s' /\ keeps s s'.
  Proof.
    intros Hg H0. induction ws as [|w ws IH]; intros ws0 chunks i s Hsk Hn Ha Hh Hok Hv.
    - destruct chunks; [|discriminate Hv]. cbn [forged_loop prun]. exists s. split; [reflexivity|]. split; [exact Hh|]. intros u Hu. auto.
    - destruct chunks as [|c chunks]; [discriminate Hv|]. cbn [map] in Hv. assert (Ev : map (lc_val (p_asg s)) c = w_siblings w) by congruence. assert (Evs : map (map (lc_val (p_asg s))) chunks = map w_siblings ws) by congruence.
      assert (Hi : nth_error ws0 i = Some w) by (rewrite <- (Nat.add_0_r i), <- nth_error_skipn', Hsk; reflexivity).
      destruct (Ha i w Hi) as (A1 & R & HR & A2). cbn [forged_loop]. rewrite Hi, HR. cbn [punwrap]. cbv zeta. inversion Hok as [|? ? Hok1 Hok2]; subst.
      assert (Hjl : (i < length qs)%nat) by (rewrite (proj1 Hn); apply nth_error_Some; congruence). destruct (nth_error qs i) as [q|] eqn:Eq; [|apply nth_error_None in Eq; lia].
      destruct (proj2 (proj2 (forged_ok E1 enc0 prm0 prm1 L i q w 0 R Hg H0 (proj2 Hn i q w Eq Hi) A1 A2)) n s c Hh Hok1 Ev) as (s1 & R1 & Hh1 & Hk1). cbn [pl_gadget] in R1.
      destruct (IH ws0 chunks (i + 1)%nat s1) as (s2 & R2 & Hh2 & Hk2); auto.
      { rewrite <- skipn_skipn'', Hsk. reflexivity. }
      { eapply Forall_impl; [|exact Hok2]. intros l Hl. eapply Forall_impl; [|exact Hl]. intros lc Hlc. eapply lc_ok_sub; [|exact Hlc]. intros u Hu. apply Hk1, Hu. }
      { rewrite <- Evs. apply map_ext_in. intros l Hl. apply map_ext_in. intros lc Hlc. apply (keeps_val _ _ _ Hk1). rewrite Forall_forall in Hok2. pose proof (Hok2 l Hl) as Hx. rewrite Forall_forall in Hx. apply Hx, Hlc. }
      exists s2. rewrite prun_bind, R1. split; [exact R2|]. split; [exact Hh2|]. eapply keeps_trans; eassumption.
  Qed.
  Lemma forged_leaves_ok (prm0 : SLParams P0) (prm1 : SLParams P1) L qs (ws : list (Wit F1 P0)) pr Rs : sl_good prm0 -> sw_a P0 = 0 -> (0 < L)%nat -> ws <> [] ->
    nodes_ok L prm1 prm0 qs ws -> (forall j w, nth_error ws j = Some w -> vadd (w_child w) (sl_delta prm0) <> v0 /\ exists R, nth_error Rs j = Some R /\ ~ In R (unreachable prm0 (w_child w))) ->
    level_ok E1 (sl_bp prm1) (mkPL (concat (map w_siblings ws)) pr (forged_leaves enc0 (length ws) prm0 Rs ws)).
  Proof.
    intros Hg H0 HL Hne Hn Ha. destruct (nodes_sum _ _ _ _ _ Hn Hne) as (Hlen & G & HG & HlG & _).
    split; [intros EG; rewrite EG in HG; discriminate HG|]. split; cbn [pl_xs pl_gadget].
    - rewrite (nth_error_nth _ _ _ HG), Hlen. exact HlG.
    - intros n s vars Hh Hok Hvals. assert (Hlv : length vars = (length ws * L)%nat) by (rewrite <- Hlen, <- Hvals, map_length; reflexivity).
      destruct (split_chunks L (length ws) vars Hlv) as (chunks & -> & Hc & HF).
      assert (Hval : map (map (lc_val (p_asg s))) chunks = map w_siblings ws).
      { apply (concat_same L); [rewrite !map_length; exact Hc| | |rewrite <- concat_map; exact Hvals].
        - apply Forall_map. eapply Forall_impl; [|exact HF]. intros c Hcl. rewrite map_length. exact Hcl.
        - apply Forall_map, Forall_forall. intros w Hw. destruct (In_nth_error _ _ Hw) as (j & Hj). assert (Hjl : (j < length qs)%nat) by (rewrite (proj1 Hn); apply nth_error_Some; congruence).
          destruct (nth_error qs j) as [q|] eqn:Eq; [|apply nth_error_None in Eq; lia]. exact (proj1 (proj2 Hn j q w Eq Hj)). }
      unfold forged_leaves. assert (Hm : (0 < length ws)%nat) by (destruct ws; [congruence|cbn; lia]). rewrite Hlv, Nat.mul_comm, Nat.div_mul by lia. destruct (Nat.eqb_spec (length ws) 0); [lia|]. destruct (Nat.eqb_spec L 0); [lia|]. cbn [orb].
      rewrite chunks_exact_concat; [|exact HL|exact HF|rewrite Hc; nia].
      apply (forged_loop_total prm0 prm1 L qs Rs Hg H0 ws ws); [reflexivity|exact Hn|exact Ha|exact Hh| |exact Hval].
      apply Forall_forall. intros c Hcin. apply Forall_forall. intros lc Hlc. rewrite Forall_forall in Hok. apply Hok. apply in_concat. exists c. auto.
  Qed.
  Lemma forged_m_lockstep dbg L prm t d ws leaves n m evens odds Rs os es tr0 tr1 s0 s1 (t0 : VState P0) (t1 : VState P1) s0' s1' p : (0 < L)%nat ->
    sl_good (even_p prm) -> sl_good (odd_p prm) -> ws <> [] -> paths_ok L prm t d ws leaves -> d <> 0%nat ->
    transpose n (map fst ws) = Some evens -> transpose m (map snd ws) = Some odds -> n = (if t_is_even t then next_length 2 d else d / 2)%nat -> m = (if t_is_even t then d / 2 else next_length 2 d)%nat ->
    (t_is_even t = Nat.even d) -> (dbg = true -> t_height t = d) ->
    session E0 (sl_pc (even_p prm)) (sl_bp (even_p prm)) tr0 s0 t0 -> session E1 (sl_pc (odd_p prm)) (sl_bp (odd_p prm)) tr1 s1 t1 ->
    forge_mpath E0 E1 enc0 (length ws) prm evens odds Rs os es s0 s1 = Some (s0', s1', p) ->
    exists (t0' : VState P0) (t1' : VState P1), msr_verify E0 E1 enc0 dbg L (length ws) prm t p t0 t1 = Some (t0', t1', Rs) /\
      session E0 (sl_pc (even_p prm)) (sl_bp (even_p prm)) tr0 s0' t0' /\ session E1 (sl_pc (odd_p prm)) (sl_bp (odd_p prm)) tr1 s1' t1'.
  Proof.
    intros HL Hg0 Hg1 Hne Hpaths Hd Ht0 Ht1 Hn Hm Hpar Hdbg Hses0 Hses1 Hprove. unfold forge_mpath in Hprove. set (M := length ws) in *.
    assert (HM : (0 < M)%nat) by (unfold M; destruct ws; [congruence|cbn; lia]).
    destruct (root_is_even evens odds) as [top|] eqn:Etop; [|discriminate Hprove]. cbn [opt_bind] in Hprove.
    destruct (prove_levels E0 _ _ s0 _) as [s0''|] eqn:H0; [|discriminate Hprove]. cbn [opt_bind] in Hprove.
    destruct (prove_levels E1 _ _ s1 _) as [s1''|] eqn:H1; [|discriminate Hprove]. cbn [opt_bind] in Hprove.
    apply Some_inj in Hprove. apply pair_inj in Hprove as [Hss <-]. apply pair_inj in Hss as [-> ->].
    set (ev := imap (fun i ws => rerandomized_sum (even_p prm) ws (es i)) 0 (removelast odds)) in *. set (od := imap (fun i ws => rerandomized_sum (odd_p prm) ws (os i)) 0 evens) in *.
    assert (Lev : length ev = (length odds - 1)%nat) by (unfold ev; rewrite imap_length, removelast_len; reflexivity). assert (Lod : length od = length evens) by apply imap_length.
    assert (Nev : forall i w, (i < length odds - 1)%nat -> nth_error odds i = Some w -> nth_error ev i = Some (rerandomized_sum (even_p prm) w (es i))).
    { intros i w Hi Hw. unfold ev. rewrite imap_nth, removelast_nth. destruct (Nat.ltb_spec i (length odds - 1)); [|lia]. rewrite Hw. reflexivity. }
    assert (Nod : forall i w, nth_error evens i = Some w -> nth_error od i = Some (rerandomized_sum (odd_p prm) w (os i))) by (intros i w Hw; unfold od; rewrite imap_nth, Hw; reflexivity).
    destruct (transpose_nth _ _ _ Ht0) as [Len Tn]. destruct (transpose_nth _ _ _ Ht1) as [Lom Tm].
    assert (Hm1 : (1 <= m)%nat). { pose proof (halves d). pose proof (halves_le d). subst m. destruct (t_is_even t); [|lia]. destruct d as [|[|d]]; [congruence|discriminate Hpar|]. change (S (S d))%nat with (2 + d)%nat. replace (2 + d)%nat with (d + 1 * 2)%nat by lia. rewrite Nat.div_add by lia. lia. }
    destruct t as [ct|ct]; cbn [t_is_even] in *.
    - destruct (paths_roots_even _ _ _ _ _ _ Hpaths) as (roots & Hroots & Lr & Hop). fold M in Hroots.
      destruct (mopens_index L d F0 F1 P0 P1 (even_p prm) (odd_p prm) roots (map fst ws) (map snd ws) n m evens odds) as [IA IB]; try assumption.
      { intros ->. cbn in Lr. fold M in Lr. lia. } { rewrite map_length. congruence. } { rewrite map_length. congruence. }
      { intros j r e o Hj He Ho. destruct (Hop j r e o Hj He Ho) as (leaf & _ & Hl). eauto. }
      rewrite Lr in IA, IB. fold M in IA, IB.
      assert (Hlen : length evens = length odds).
      { destruct (nth_error ws 0) as [[e o]|] eqn:X1; [|apply nth_error_None in X1; fold M in X1; lia]. destruct (nth_error roots 0) as [r|] eqn:X2; [|apply nth_error_None in X2; fold M in Lr; lia].
        destruct (Hop 0%nat r e o X2) as (leaf & _ & Hl); [rewrite nth_error_map, X1; reflexivity|rewrite nth_error_map, X1; reflexivity|]. destruct (opens_leaf _ _ _ _ _ _ _ _ _ _ _ _ _ Hl) as [Hx _]. destruct (opens_lengths _ _ _ _ _ _ _ _ _ _ _ _ _ Hl). lia. }
      unfold root_is_even in Etop. rewrite Hlen, Nat.eqb_refl in Etop. apply Some_inj in Etop. subst top. cbn [negb] in H1.
      assert (Zos : forall i, (i < length evens)%nat -> os i <> 0).
      { intros i Hi. destruct (nth_error evens i) as [nd|] eqn:En; [|apply nth_error_None in En; lia]. destruct (IA i nd En) as (Hln & qs & Hq & _).
        eapply (level_scalar E0 _ _ (even_p prm) (odd_p prm) L M _ i); [exact Hg1|exact HL|exact HM|exact Hln|exact Hq|exact H0|]. unfold m_even_levels. rewrite imap_nth, En. reflexivity. }
      assert (Zes : forall i, (i < length odds - 1)%nat -> es i <> 0).
      { intros i Hi. destruct (nth_error odds i) as [nd|] eqn:En; [|apply nth_error_None in En; lia]. destruct (IB i nd En) as (Hln & vs & _ & Hq).
        eapply (level_scalar E1 _ _ (odd_p prm) (even_p prm) L M _ i); [exact Hg0|exact HL|exact HM|exact Hln|exact Hq|exact H1|]. unfold forged_m_levels. rewrite imap_nth, En. cbn [option_map Nat.add]. destruct (Nat.ltb_spec i (length odds - 1)); [reflexivity|lia]. }
      unfold msr_verify, m_verification_commitments. cbn [mp_even mp_odd mp_selected]. rewrite Lev, Lod, Hlen.
      replace (length odds - 1 + 1)%nat with (length odds) by lia. rewrite Nat.eqb_refl. cbn [guard]. rewrite (sum_roots_psum _ _ _ Hroots). cbn [opt_bind mp_even mp_odd mp_selected length].
      rewrite Lev, Lod, Hlen. replace (S (length odds - 1) + length odds)%nat with d by (pose proof (halves d); lia).
      assert (Edbg : (dbg && negb (t_height (TEven ct) =? d)%nat)%bool = false). { destruct dbg; [|reflexivity]. rewrite (Hdbg eq_refl), Nat.eqb_refl. reflexivity. }
      rewrite Edbg. unfold m_root_is_odd. cbn [mp_even mp_odd length]. rewrite Lev, Lod, Hlen.
      destruct (Nat.eqb_spec (S (length odds - 1) + 1) (length odds)) as [Hx|_]; [lia|]. replace (S (length odds - 1)) with (length odds) by lia. rewrite Nat.eqb_refl. cbn [guard opt_bind].
      unfold m_even_vlevels, m_odd_vlevels. cbn [mp_even mp_odd mp_selected].
      match goal with |- context [all_some (imap ?fv 0 (psum roots :: ev))] =>
        destruct (levels_pair (level_match (V := P0) (sl_pc (even_p prm)) (sl_bp (even_p prm)))
          (fun i nd => batched_level M (odd_p prm) (parent_scalar true es i) (os i) nd) fv evens (psum roots :: ev) 0) as (lv0 & Hlv0 & HF0) end.
      { cbn [length]. lia. }
      { intros k nd cc Hnd Hcc. cbn [Nat.add negb]. destruct (IA k nd Hnd) as (Hln & qs & Hq & Hqs). rewrite (Nod k nd Hnd). destruct k as [|k]; cbn [Nat.eqb andb nth_error] in *.
        - pose proof (paths_public_even _ _ _ _ _ _ _ _ _ Hpaths Ht0 Hnd) as Xp. fold M in Xp. rewrite Xp. cbn [option_map opt_bind].
          destruct (src_match (even_p prm) (odd_p prm) L M nd (parent_scalar true es 0) (inl (concat (map w_siblings nd))) qs
            (fun vars => single_level_batched M (odd_p prm) (rerandomized_sum (odd_p prm) nd (os 0%nat)) vars (Some (map (fun w => vadd (w_child w) (sl_delta (odd_p prm))) nd)) (Some (os 0%nat)))
            (fun vars => single_level_batched M (odd_p prm) (rerandomized_sum (odd_p prm) nd (os 0%nat)) vars None None) Hq Hln HM) as [X1 X2]; [left; split; reflexivity|intros vars; apply batched_level_sim|].
          rewrite X1. cbn [guard]. eexists. split; [reflexivity|]. exact X2.
        - cbn [opt_bind]. destruct Hqs as (vs & Hvs & ->). assert (Hk : (k < length odds - 1)%nat) by (rewrite <- Lev; apply nth_error_Some; congruence). rewrite (Nev k vs Hk Hvs) in Hcc. apply Some_inj in Hcc. subst cc.
          destruct (src_match (even_p prm) (odd_p prm) L M nd (es k) (inr ((L * M)%nat, rerandomized_sum (even_p prm) vs (es k))) (map w_child vs)
            (fun vars => single_level_batched M (odd_p prm) (rerandomized_sum (odd_p prm) nd (os (S k))) vars (Some (map (fun w => vadd (w_child w) (sl_delta (odd_p prm))) nd)) (Some (os (S k))))
            (fun vars => single_level_batched M (odd_p prm) (rerandomized_sum (odd_p prm) nd (os (S k))) vars None None) Hq Hln HM) as [X1 X2];
            [right; split; [apply Zes, Hk|unfold rerandomized_sum; rewrite sum_children_psum; reflexivity]|intros vars; apply batched_level_sim|].
          rewrite X1. cbn [guard]. eexists. split; [reflexivity|]. exact X2. }
      rewrite Hlv0. cbn [opt_bind]. destruct (levels_lockstep E0 _ _ tr0 _ _ _ _ _ HF0 Hses0 H0) as (t0' & Ht0' & Hs0). rewrite Ht0'. cbn [opt_bind].
      match goal with |- context [all_some (imap ?fv 0 od)] =>
        destruct (levels_pair (level_match (V := P1) (sl_pc (odd_p prm)) (sl_bp (odd_p prm)))
          (fun i nd => if (i <? length odds - 1)%nat then batched_level M (even_p prm) (parent_scalar false os i) (es i) nd
             else mkPL (concat (map w_siblings nd)) (parent_scalar false os i) (forged_leaves enc0 M (even_p prm) Rs nd)) fv odds od 0) as (lv1 & Hlv1 & HF1) end.
      { lia. }
      { intros k nd cc Hnd Hcc. cbn [Nat.add]. destruct (IB k nd Hnd) as (Hln & vs & Hvs & Hq). rewrite (Nod k vs Hvs) in Hcc. apply Some_inj in Hcc. subst cc. rewrite Lod, Hlen, Bool.andb_false_r. cbn [opt_bind parent_scalar].
        assert (Zk : os k <> 0) by (apply Zos; apply nth_error_Some; congruence).
        destruct (Nat.ltb_spec k (length odds - 1)) as [Hlt|Hge].
        - replace (k + 1)%nat with (S k) by lia. cbn [nth_error]. rewrite (Nev k nd Hlt Hnd). cbn [opt_bind].
          destruct (src_match (odd_p prm) (even_p prm) L M nd (os k) (inr ((L * M)%nat, rerandomized_sum (odd_p prm) vs (os k))) (map w_child vs)
            (fun vars => single_level_batched M (even_p prm) (rerandomized_sum (even_p prm) nd (es k)) vars (Some (map (fun w => vadd (w_child w) (sl_delta (even_p prm))) nd)) (Some (es k)))
            (fun vars => single_level_batched M (even_p prm) (rerandomized_sum (even_p prm) nd (es k)) vars None None) Hq Hln HM) as [X1 X2];
            [right; split; [exact Zk|unfold rerandomized_sum; rewrite sum_children_psum; reflexivity]|intros vars; apply batched_level_sim|].
          rewrite X1. cbn [guard]. eexists. split; [reflexivity|]. exact X2.
        - destruct (src_match (odd_p prm) (even_p prm) L M nd (os k) (inr ((L * M)%nat, rerandomized_sum (odd_p prm) vs (os k))) (map w_child vs)
            (forged_leaves enc0 M (even_p prm) Rs nd) (leaves_gadget M enc0 (even_p prm) Rs None) Hq Hln HM) as [X1 X2];
            [right; split; [exact Zk|unfold rerandomized_sum; rewrite sum_children_psum; reflexivity]|intros vars; apply forged_leaves_sim|].
          rewrite X1. cbn [guard]. eexists. split; [reflexivity|]. exact X2. }
      rewrite Hlv1. cbn [opt_bind]. destruct (levels_lockstep E1 _ _ tr1 _ _ _ _ _ HF1 Hses1 H1) as (t1' & Ht1' & Hs1). rewrite Ht1'. cbn [opt_bind].
      exists t0', t1'. split; [reflexivity|]. split; [exact Hs0|exact Hs1].
    - destruct (paths_roots_odd _ _ _ _ _ _ Hpaths) as (roots & Hroots & Lr & Hop). fold M in Hroots.
      destruct (mopens_index L d F1 F0 P1 P0 (odd_p prm) (even_p prm) roots (map snd ws) (map fst ws) m n odds evens) as [IA IB]; try assumption.
      { intros ->. cbn in Lr. fold M in Lr. lia. } { rewrite map_length. congruence. } { rewrite map_length. congruence. }
      { intros j r e o Hj He Ho. destruct (Hop j r o e Hj Ho He) as (leaf & _ & Hl). eauto. }
      rewrite Lr in IA, IB. fold M in IA, IB.
      assert (Hlen : length odds = S (length evens)).
      { destruct (nth_error ws 0) as [[e o]|] eqn:X1; [|apply nth_error_None in X1; fold M in X1; lia]. destruct (nth_error roots 0) as [r|] eqn:X2; [|apply nth_error_None in X2; fold M in Lr; lia].
        destruct (Hop 0%nat r e o X2) as (leaf & _ & Hl); [rewrite nth_error_map, X1; reflexivity|rewrite nth_error_map, X1; reflexivity|]. destruct (opens_leaf _ _ _ _ _ _ _ _ _ _ _ _ _ Hl) as [Hx _]. destruct (opens_lengths _ _ _ _ _ _ _ _ _ _ _ _ _ Hl). lia. }
      unfold root_is_even in Etop. destruct (Nat.eqb_spec (length evens) (length odds)) as [Hx|_]; [lia|]. rewrite Nat.add_comm in Etop. cbn [Nat.add] in Etop. rewrite Hlen, Nat.eqb_refl in Etop. apply Some_inj in Etop. subst top. cbn [negb] in H1.
      assert (Zos : forall i, (i < length evens)%nat -> os i <> 0).
      { intros i Hi. destruct (nth_error evens i) as [nd|] eqn:En; [|apply nth_error_None in En; lia]. destruct (IB i nd En) as (Hln & vs & _ & Hq).
        eapply (level_scalar E0 _ _ (even_p prm) (odd_p prm) L M _ i); [exact Hg1|exact HL|exact HM|exact Hln|exact Hq|exact H0|]. unfold m_even_levels. rewrite imap_nth, En. reflexivity. }
      assert (Zes : forall i, (i < length odds - 1)%nat -> es i <> 0).
      { intros i Hi. destruct (nth_error odds i) as [nd|] eqn:En; [|apply nth_error_None in En; lia]. destruct (IA i nd En) as (Hln & qs & Hq & _).
        eapply (level_scalar E1 _ _ (odd_p prm) (even_p prm) L M _ i); [exact Hg0|exact HL|exact HM|exact Hln|exact Hq|exact H1|]. unfold forged_m_levels. rewrite imap_nth, En. cbn [option_map Nat.add]. destruct (Nat.ltb_spec i (length odds - 1)); [reflexivity|lia]. }
      unfold msr_verify, m_verification_commitments. cbn [mp_even mp_odd mp_selected]. rewrite Lev, Lod, Hlen.
      replace (S (length evens) - 1)%nat with (length evens) by lia. rewrite Nat.eqb_refl. cbn [guard]. rewrite (sum_roots_psum _ _ _ Hroots). cbn [opt_bind mp_even mp_odd mp_selected length].
      rewrite Lev, Lod, Hlen. replace (S (length evens) - 1 + S (length evens))%nat with d by (pose proof (halves d); lia).
      assert (Edbg : (dbg && negb (t_height (TOdd ct) =? d)%nat)%bool = false). { destruct dbg; [|reflexivity]. rewrite (Hdbg eq_refl), Nat.eqb_refl. reflexivity. }
      rewrite Edbg. unfold m_root_is_odd. cbn [mp_even mp_odd length]. rewrite Lev, Lod, Hlen.
      replace (S (length evens) - 1 + 1)%nat with (S (length evens)) by lia. rewrite Nat.eqb_refl. cbn [guard opt_bind].
      unfold m_even_vlevels, m_odd_vlevels. cbn [mp_even mp_odd mp_selected].
      match goal with |- context [all_some (imap ?fv 0 ev)] =>
        destruct (levels_pair (level_match (V := P0) (sl_pc (even_p prm)) (sl_bp (even_p prm)))
          (fun i nd => batched_level M (odd_p prm) (parent_scalar false es i) (os i) nd) fv evens ev 0) as (lv0 & Hlv0 & HF0) end.
      { lia. }
      { intros k nd cc Hnd Hcc. cbn [Nat.add negb]. destruct (IB k nd Hnd) as (Hln & vs & Hvs & Hq). rewrite Bool.andb_false_r. cbn [opt_bind parent_scalar]. replace (k + 1)%nat with (S k) by lia. cbn [nth_error]. rewrite (Nod k nd Hnd). cbn [opt_bind].
        assert (Hk : (k < length odds - 1)%nat) by (rewrite <- Lev; apply nth_error_Some; congruence). rewrite (Nev k vs Hk Hvs) in Hcc. apply Some_inj in Hcc. subst cc.
        destruct (src_match (even_p prm) (odd_p prm) L M nd (es k) (inr ((L * M)%nat, rerandomized_sum (even_p prm) vs (es k))) (map w_child vs)
          (fun vars => single_level_batched M (odd_p prm) (rerandomized_sum (odd_p prm) nd (os k)) vars (Some (map (fun w => vadd (w_child w) (sl_delta (odd_p prm))) nd)) (Some (os k)))
          (fun vars => single_level_batched M (odd_p prm) (rerandomized_sum (odd_p prm) nd (os k)) vars None None) Hq Hln HM) as [X1 X2];
          [right; split; [apply Zes, Hk|unfold rerandomized_sum; rewrite sum_children_psum; reflexivity]|intros vars; apply batched_level_sim|].
        rewrite X1. cbn [guard]. eexists. split; [reflexivity|]. exact X2. }
      rewrite Hlv0. cbn [opt_bind]. destruct (levels_lockstep E0 _ _ tr0 _ _ _ _ _ HF0 Hses0 H0) as (t0' & Ht0' & Hs0). rewrite Ht0'. cbn [opt_bind].
      match goal with |- context [all_some (imap ?fv 0 (psum roots :: od))] =>
        destruct (levels_pair (level_match (V := P1) (sl_pc (odd_p prm)) (sl_bp (odd_p prm)))
          (fun i nd => if (i <? length odds - 1)%nat then batched_level M (even_p prm) (parent_scalar true os i) (es i) nd
             else mkPL (concat (map w_siblings nd)) (parent_scalar true os i) (forged_leaves enc0 M (even_p prm) Rs nd)) fv odds (psum roots :: od) 0) as (lv1 & Hlv1 & HF1) end.
      { cbn [length]. lia. }
      { intros k nd cc Hnd Hcc. cbn [Nat.add length]. destruct (IA k nd Hnd) as (Hln & qs & Hq & Hqs). rewrite Lod. replace (S (length evens) - 1)%nat with (length odds - 1)%nat by lia.
        assert (Hsrc : exists src, (if ((k =? 0)%nat && true)%bool then option_map inl (m_root_xs_odd M prm (TOdd ct)) else Some (inr ((L * M)%nat, cc))) = Some src /\
          ((parent_scalar true os k = 0 /\ src = inl (concat (map w_siblings nd))) \/ (parent_scalar true os k <> 0 /\ src = inr ((L * M)%nat, vadd (psum qs) (vsmul (parent_scalar true os k) (pcB_blinding (sl_pc (odd_p prm)))))))).
        { destruct k as [|k]; cbn [Nat.eqb andb nth_error parent_scalar] in *.
          - pose proof (paths_public_odd _ _ _ _ _ _ _ _ _ Hpaths Ht1 Hnd) as Xp. fold M in Xp. rewrite Xp. cbn [option_map]. eexists. split; [reflexivity|]. left. split; reflexivity.
          - eexists. split; [reflexivity|]. right. destruct Hqs as (vs & Hvs & ->). rewrite (Nod k vs Hvs) in Hcc. apply Some_inj in Hcc. subst cc. split; [apply Zos; apply nth_error_Some; congruence|].
            unfold rerandomized_sum. rewrite sum_children_psum. reflexivity. }
        destruct Hsrc as (src & Hs1 & Hs2). rewrite Hs1. cbn [opt_bind]. destruct (Nat.ltb_spec k (length odds - 1)) as [Hlt|Hge].
        - rewrite (Nev k nd Hlt Hnd). cbn [opt_bind].
          destruct (src_match (odd_p prm) (even_p prm) L M nd (parent_scalar true os k) src qs
            (fun vars => single_level_batched M (even_p prm) (rerandomized_sum (even_p prm) nd (es k)) vars (Some (map (fun w => vadd (w_child w) (sl_delta (even_p prm))) nd)) (Some (es k)))
            (fun vars => single_level_batched M (even_p prm) (rerandomized_sum (even_p prm) nd (es k)) vars None None) Hq Hln HM) as [X1 X2]; [exact Hs2|intros vars; apply batched_level_sim|].
          rewrite X1. cbn [guard]. eexists. split; [reflexivity|]. exact X2.
        - destruct (src_match (odd_p prm) (even_p prm) L M nd (parent_scalar true os k) src qs
            (forged_leaves enc0 M (even_p prm) Rs nd) (leaves_gadget M enc0 (even_p prm) Rs None) Hq Hln HM) as [X1 X2]; [exact Hs2|intros vars; apply forged_leaves_sim|].
          rewrite X1. cbn [guard]. eexists. split; [reflexivity|]. exact X2. }
      rewrite Hlv1. cbn [opt_bind]. destruct (levels_lockstep E1 _ _ tr1 _ _ _ _ _ HF1 Hses1 H1) as (t1' & Ht1' & Hs1). rewrite Ht1'. cbn [opt_bind].
      exists t0', t1'. split; [reflexivity|]. split; [exact Hs0|exact Hs1].
  Qed.

  Lemma forged_m_total L prm t d ws leaves n m evens odds Rs os es s0 s1 : (0 < L)%nat ->
    sl_good (even_p prm) -> sl_good (odd_p prm) -> sw_a P0 = 0 -> sw_a P1 = 0 -> ws <> [] -> paths_ok L prm t d ws leaves -> d <> 0%nat ->
    transpose n (map fst ws) = Some evens -> transpose m (map snd ws) = Some odds -> n = (if t_is_even t then next_length 2 d else d / 2)%nat -> m = (if t_is_even t then d / 2 else next_length 2 d)%nat ->
    t_is_even t = Nat.even d ->
    (forall i nd, nth_error evens i = Some nd -> badmissible (odd_p prm) (map w_child nd) (os i)) ->
    (forall i nd, nth_error (removelast odds) i = Some nd -> badmissible (even_p prm) (map w_child nd) (es i)) ->
    (forall j w, nth_error (last odds []) j = Some w -> vadd (w_child w) (sl_delta (even_p prm)) <> v0 /\ exists R, nth_error Rs j = Some R /\ ~ In R (unreachable (even_p prm) (w_child w))) ->
    honest s0 -> honest s1 ->
    exists s0' s1' p, forge_mpath E0 E1 enc0 (length ws) prm evens odds Rs os es s0 s1 = Some (s0', s1', p) /\
      honest s0' /\ honest s1' /\ keeps s0 s0' /\ keeps s1 s1' /\ p_def s0' = p_def s0 /\ p_def s1' = p_def s1.
  Proof.
    intros HL Hg0 Hg1 Ha0 Ha1 Hne Hpaths Hd Ht0 Ht1 Hn Hm Hpar Aos Aes Als Hh0 Hh1. destruct (paths_nodes _ _ _ _ _ _ _ _ _ _ Hne Hpaths Hd Ht0 Ht1 Hn Hm Hpar) as (IA & IB & Hr & Hlo).
    unfold forge_mpath. rewrite Hr. cbn [opt_bind]. set (top := t_is_even t). set (M := length ws) in *. assert (HM : (0 < M)%nat) by (unfold M; destruct ws; [congruence|cbn; lia]).
    destruct (nth_error odds (length odds - 1)) as [lastn|] eqn:Elast; [|apply nth_error_None in Elast; lia]. rewrite (last_nth odds [] lastn Elast) in Als.
    destruct (levels_total (n := 0) E0 (sl_pc (even_p prm)) (sl_bp (even_p prm)) (m_even_levels M prm top evens os es) s0) as (s0' & R0 & Hh0' & Hk0); [|exact Hh0|].
    { apply imap_Forall. intros k nd Hnd. cbn [Nat.add]. destruct (IA k nd Hnd) as (Hln & qs & Hq). rewrite <- Hln. apply (batched_level_ok E0 (even_p prm) (odd_p prm) L qs nd); [exact Hg1|exact Ha1|exact HL|intros ->; cbn in Hln; lia|exact Hq|apply Aos; exact Hnd]. }
    destruct (levels_total (n := 0) E1 (sl_pc (odd_p prm)) (sl_bp (odd_p prm)) (forged_m_levels enc0 M prm (negb top) odds Rs os es) s1) as (s1' & R1 & Hh1' & Hk1); [|exact Hh1|].
    { apply imap_Forall. intros k nd Hnd. cbn [Nat.add]. destruct (IB k nd Hnd) as (Hln & qs & Hq). assert (Hnn : nd <> []) by (intros ->; cbn in Hln; lia). destruct (Nat.ltb_spec k (length odds - 1)) as [Hlt|Hge].
      - rewrite <- Hln. apply (batched_level_ok E1 (odd_p prm) (even_p prm) L qs nd); [exact Hg0|exact Ha0|exact HL|exact Hnn|exact Hq|]. apply Aes. rewrite removelast_nth. destruct (Nat.ltb_spec k (length odds - 1)); [exact Hnd|lia].
      - assert (Hk : (k < length odds)%nat) by (apply nth_error_Some; congruence). replace k with (length odds - 1)%nat in Hnd by lia. rewrite Elast in Hnd. apply Some_inj in Hnd. subst nd. rewrite <- Hln. apply (forged_leaves_ok (even_p prm) (odd_p prm) L qs lastn); assumption. }
    rewrite R0, R1. cbn [opt_bind]. eexists s0', s1', _. split; [reflexivity|]. split; [exact Hh0'|]. split; [exact Hh1'|]. split; [exact Hk0|]. split; [exact Hk1|]. split.
    - eapply levels_def; [|exact R0]. apply imap_Forall. intros k nd _. unfold batched_level. cbn [Nat.add pl_gadget]. eexists (fun vars => single_level_batched M (odd_p prm) _ vars None None). intros vars. apply batched_level_sim.
    - eapply levels_def; [|exact R1]. apply imap_Forall. intros k nd _. cbn [Nat.add]. destruct (k <? length odds - 1)%nat; unfold batched_level; cbn [pl_gadget].
      + eexists (fun vars => single_level_batched M (even_p prm) _ vars None None). intros vars. apply batched_level_sim.
      + eexists. intros vars. apply forged_leaves_sim.
  Qed.
End Lemmas.
