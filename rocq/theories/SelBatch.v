(** * Batched paths: lemmas *)
From Verif Require Export SelPath.
From Verif Require Import CSProofs UtilProofs Lockstep CSMore.
Local Open Scope F_scope.

(** ** Lists *)
Lemma all_some_map_nth {A B} (f : A -> option B) l r : all_some (map f l) = Some r -> length r = length l /\ forall i a, nth_error l i = Some a -> exists b, nth_error r i = Some b /\ f a = Some b.
Proof.
  intros H. destruct (all_some_nth f l r H) as [Hl Hn]. split; [exact Hl|]. intros i a Ha. destruct (nth_error r i) as [b|] eqn:Eb.
  - destruct (Hn i b Eb) as (a' & Ha' & Hf). exists b. split; [reflexivity|congruence].
  - apply nth_error_None in Eb. assert (i < length l)%nat by (apply nth_error_Some; congruence). lia.
Qed.
Lemma transpose_nth {A} n (paths : list (list A)) tt : transpose n paths = Some tt -> length tt = n /\
  forall i ws, nth_error tt i = Some ws -> length ws = length paths /\ forall j p, nth_error paths j = Some p -> exists w, nth_error ws j = Some w /\ nth_error p i = Some w.
Proof.
  intros H. unfold transpose in H. destruct (all_some_nth _ _ _ H) as [Hl Hn]. rewrite seq_length in Hl. split; [exact Hl|].
  intros i ws Hw. destruct (Hn i ws Hw) as (i' & Hi' & Hws). assert (Hlt : (i < n)%nat) by (rewrite <- Hl; apply nth_error_Some; congruence).
  rewrite nth_error_nth' with (d := 0%nat) in Hi' by (rewrite seq_length; exact Hlt). rewrite seq_nth in Hi' by exact Hlt. apply Some_inj in Hi'. cbn in Hi'. subst i'.
  destruct (all_some_map_nth _ _ _ Hws) as [Hl2 Hn2]. split; [exact Hl2|]. intros j p Hp. destruct (Hn2 j p Hp) as (w & H1 & H2). eauto.
Qed.
Lemma halves_le k : (k / 2 <= next_length 2 k <= k / 2 + 1)%nat.
Proof.
  unfold next_length. replace (k + 2 - 1)%nat with (k + 1)%nat by lia. pose proof (Nat.div_mod (k + 1) 2 ltac:(lia)). pose proof (Nat.div_mod k 2 ltac:(lia)).
  pose proof (Nat.mod_upper_bound (k + 1) 2 ltac:(lia)). pose proof (Nat.mod_upper_bound k 2 ltac:(lia)). lia.
Qed.
Lemma split_chunks {A} (L M : nat) : forall vars : list A, length vars = (M * L)%nat -> exists chunks, vars = concat chunks /\ length chunks = M /\ Forall (fun c => length c = L) chunks.
Proof.
  induction M as [|M IH]; intros vars Hl.
  - destruct vars; [|discriminate Hl]. exists []. repeat split. constructor.
  - destruct (IH (skipn L vars)) as (cs & E & Hc & HF); [rewrite skipn_length; lia|]. exists (firstn L vars :: cs). cbn [concat length]. rewrite <- E, firstn_skipn. split; [reflexivity|]. split; [lia|]. constructor; [|exact HF].
    rewrite firstn_length. lia.
Qed.

Lemma all_some_Forall2 {A B} (f : A -> option B) l r : Forall2 (fun a b => f a = Some b) l r -> all_some (map f l) = Some r.
Proof. induction 1 as [|a b l r H _ IH]; [reflexivity|]. cbn [map all_some]. rewrite H, IH. reflexivity. Qed.
Lemma Forall2_index {A B} (R : A -> B -> Prop) l m : length l = length m -> (forall i a b, nth_error l i = Some a -> nth_error m i = Some b -> R a b) -> Forall2 R l m.
Proof.
  revert m. induction l as [|a l IH]; intros [|b m] Hl H; try discriminate Hl; constructor; [exact (H 0%nat a b eq_refl eq_refl)|]. apply IH; [cbn in Hl; lia|]. intros i x y Hx Hy. exact (H (S i) x y Hx Hy).
Qed.
Lemma nth_error_ext {A} (l m : list A) : (forall i, nth_error l i = nth_error m i) -> l = m.
Proof.
  revert m. induction l as [|a l IH]; intros [|b m] H; [reflexivity|discriminate (H 0%nat)|discriminate (H 0%nat)|].
  pose proof (H 0%nat) as H0. cbn in H0. apply Some_inj in H0. subst b. f_equal. apply IH. intros i. exact (H (S i)).
Qed.
Lemma seq_index n i a : nth_error (seq 0 n) i = Some a -> a = i /\ (i < n)%nat.
Proof.
  intros H. assert (Hi : (i < n)%nat) by (rewrite <- (seq_length n 0); apply nth_error_Some; congruence). rewrite nth_error_nth' with (d := 0%nat) in H by (rewrite seq_length; exact Hi).
  rewrite seq_nth in H by exact Hi. apply Some_inj in H. split; [symmetry; exact H|exact Hi].
Qed.

Lemma nth_error_skipn' {A} (l : list A) : forall i k, nth_error (skipn i l) k = nth_error l (i + k).
Proof. induction l as [|a l IH]; intros [|i] k; cbn [skipn Nat.add nth_error]; [reflexivity|destruct k; reflexivity|reflexivity|apply IH]. Qed.
Lemma skipn_skipn'' {A} (l : list A) a : skipn 1 (skipn a l) = skipn (a + 1) l.
Proof. rewrite skipn_skipn'. f_equal. lia. Qed.

(** ** The nodes of M paths at one level *)
Definition nodes_ok {F0 F1 : PField} {P0 : SWCurve F1 F0} {P1 : SWCurve F0 F1} (L : nat) (prm0 : SLParams P0) (prm1 : SLParams P1) (parents : list P0) (ws : list (Wit F0 P1)) : Prop :=
  length parents = length ws /\ forall j q w, nth_error parents j = Some q -> nth_error ws j = Some w -> node_ok L j prm0 prm1 q w.

Lemma mopens_index L d (F0 F1 : PField) (P0 : SWCurve F1 F0) (P1 : SWCurve F0 F1) (prm0 : SLParams P0) (prm1 : SLParams P1) (roots : list P0) (eps : list (list (Wit F0 P1))) (ops : list (list (Wit F1 P0))) n m evens odds :
  roots <> [] -> length eps = length roots -> length ops = length roots ->
  (forall j r e o, nth_error roots j = Some r -> nth_error eps j = Some e -> nth_error ops j = Some o -> exists l, opens L j d prm0 prm1 r e o l) ->
  transpose n eps = Some evens -> transpose m ops = Some odds -> n = next_length 2 d -> m = (d / 2)%nat ->
  (forall i ws, nth_error evens i = Some ws -> length ws = length roots /\ exists qs, nodes_ok L prm0 prm1 qs ws /\ match i with O => qs = roots | S k => exists vs, nth_error odds k = Some vs /\ qs = map w_child vs end) /\
  (forall i ws, nth_error odds i = Some ws -> length ws = length roots /\ exists vs, nth_error evens i = Some vs /\ nodes_ok L prm1 prm0 (map w_child vs) ws).
Proof.
  intros Hne Le Lo Hop Ht1 Ht2 Hn Hm. destruct (transpose_nth _ _ _ Ht1) as [L1 T1]. destruct (transpose_nth _ _ _ Ht2) as [L2 T2].
  assert (Hall : forall j, (j < length roots)%nat -> exists r e o l, nth_error roots j = Some r /\ nth_error eps j = Some e /\ nth_error ops j = Some o /\ opens L j d prm0 prm1 r e o l).
  { intros j Hj. destruct (nth_error roots j) as [r|] eqn:E1; [|apply nth_error_None in E1; lia]. destruct (nth_error eps j) as [e|] eqn:E2; [|apply nth_error_None in E2; lia].
    destruct (nth_error ops j) as [o|] eqn:E3; [|apply nth_error_None in E3; lia]. destruct (Hop j r e o E1 E2 E3) as (l & Hl). exists r, e, o, l. auto. }
  assert (H0 : (0 < length roots)%nat) by (destruct roots; [congruence|cbn; lia]).
  split; intros i ws Hws.
  - destruct (T1 i ws Hws) as [Hlw Hw]. split; [congruence|]. assert (Hi : (i < next_length 2 d)%nat) by (rewrite <- Hn, <- L1; apply nth_error_Some; congruence). destruct i as [|k].
    + exists roots. split; [|reflexivity]. split; [congruence|]. intros j q w Hq Hjw. destruct (Hall j) as (r & e & o & l & E1 & E2 & E3 & Ho); [apply nth_error_Some; congruence|].
      destruct (Hw j e E2) as (w' & Hw' & Hew). rewrite E1 in Hq. apply Some_inj in Hq. subst r. rewrite Hw' in Hjw. apply Some_inj in Hjw. subst w'.
      destruct (proj1 (opens_index _ _ _ _ _ _ _ _ _ _ _ _ _ Ho) 0%nat w Hew) as (q' & -> & Hok). exact Hok.
    + destruct (nth_error odds k) as [vs|] eqn:Ev; [|exfalso; apply nth_error_None in Ev; rewrite L2, Hm in Ev; pose proof (halves_le d); lia].
      destruct (T2 k vs Ev) as [Hlv Hv]. exists (map w_child vs). split; [|eauto]. split; [rewrite map_length; congruence|]. intros j q w Hq Hjw.
      destruct (Hall j) as (r & e & o & l & E1 & E2 & E3 & Ho); [rewrite <- Le, <- Hlw; apply nth_error_Some; congruence|].
      destruct (Hw j e E2) as (w' & Hw' & Hew). rewrite Hw' in Hjw. apply Some_inj in Hjw. subst w'.
      destruct (Hv j o E3) as (v & Hv' & Hov). rewrite nth_error_map, Hv' in Hq. cbn [option_map] in Hq. apply Some_inj in Hq. subst q.
      destruct (proj1 (opens_index _ _ _ _ _ _ _ _ _ _ _ _ _ Ho) (S k) w Hew) as (q' & (v' & Hv2 & ->) & Hok). rewrite Hov in Hv2. apply Some_inj in Hv2. subst v'. exact Hok.
  - destruct (T2 i ws Hws) as [Hlw Hw]. split; [congruence|]. assert (Hi : (i < d / 2)%nat) by (rewrite <- Hm, <- L2; apply nth_error_Some; congruence).
    destruct (nth_error evens i) as [vs|] eqn:Ev; [|exfalso; apply nth_error_None in Ev; rewrite L1, Hn in Ev; pose proof (halves_le d); lia].
    destruct (T1 i vs Ev) as [Hlv Hv]. exists vs. split; [reflexivity|]. split; [rewrite map_length; congruence|]. intros j q w Hq Hjw.
    destruct (Hall j) as (r & e & o & l & E1 & E2 & E3 & Ho); [rewrite <- Lo, <- Hlw; apply nth_error_Some; congruence|].
    destruct (Hw j o E3) as (w' & Hw' & How). rewrite Hw' in Hjw. apply Some_inj in Hjw. subst w'.
    destruct (Hv j e E2) as (v & Hv' & Hev). rewrite nth_error_map, Hv' in Hq. cbn [option_map] in Hq. apply Some_inj in Hq. subst q.
    destruct (proj2 (opens_index _ _ _ _ _ _ _ _ _ _ _ _ _ Ho) i w How) as (v' & Hv2 & Hok). rewrite Hev in Hv2. apply Some_inj in Hv2. subst v'. exact Hok.
Qed.

(** ** One batched level *)
Section BMatch.
  Context {F0 F1 : PField} {P0 : SWCurve F1 F0} {P1 : SWCurve F0 F1}.
  Add Field FFselb0 : (f_th F0).
  Add Field FFselb1 : (f_th F1).
  Lemma fold_vadd {V : VSpace F0} (l : list V) : forall a, fold_left vadd l a = vadd a (psum l).
  Proof. induction l as [|x l IH]; intros a; cbn [fold_left psum fold_right]; [rewrite vadd_0_r; reflexivity|]. rewrite IH, <- vadd_assoc. reflexivity. Qed.
  Lemma sum_children_psum (ws : list (Wit F0 P1)) : sum_children ws = psum (map w_child ws).
  Proof.
    unfold sum_children. assert (H : forall a, fold_left (fun a w => vadd a (w_child w)) ws a = vadd a (psum (map w_child ws))); [|rewrite H, vadd_0_l; reflexivity].
    induction ws as [|x l IH]; intros a; cbn [fold_left map psum fold_right]; [rewrite vadd_0_r; reflexivity|]. rewrite IH, <- vadd_assoc. reflexivity.
  Qed.
  (** the sum of the parents is the commitment to all children *)
  Lemma nodes_sum L (prm0 : SLParams P0) (prm1 : SLParams P1) qs ws : nodes_ok L prm0 prm1 qs ws -> ws <> [] ->
    length (concat (map w_siblings ws)) = (length ws * L)%nat /\ exists G, nth_error (G_vec (sl_bp prm0)) 0 = Some G /\ (length ws * L <= length G)%nat /\ psum qs = msm (concat (map w_siblings ws)) G.
  Proof.
    intros [Hl Hn] Hne.
    assert (HG : exists G, nth_error (G_vec (sl_bp prm0)) 0 = Some G).
    { destruct ws as [|w ws]; [congruence|]. destruct qs as [|q qs]; [discriminate Hl|]. destruct (Hn 0%nat q w eq_refl eq_refl) as (_ & (G & HG & _) & _). eauto. }
    destruct HG as (G & HG).
    assert (Gen : forall ws qs k, length qs = length ws -> (forall j q w, nth_error qs j = Some q -> nth_error ws j = Some w -> node_ok L (k + j) prm0 prm1 q w) ->
      length (concat (map w_siblings ws)) = (length ws * L)%nat /\ (ws <> [] -> (k + length ws) * L <= length G)%nat /\ psum qs = msm (concat (map w_siblings ws)) (skipn (k * L) G)).
    { clear qs ws Hl Hn Hne. induction ws as [|w ws IH]; intros [|q qs] k Hl Hn; try discriminate Hl; cbn [map concat length].
      - split; [reflexivity|]. split; [congruence|]. reflexivity.
      - destruct (Hn 0%nat q w eq_refl eq_refl) as (HL & (G' & HG' & Hlen & Hq) & _). rewrite Nat.add_0_r in *. rewrite HG in HG'. apply Some_inj in HG'. subst G'.
        destruct (IH qs (S k)) as (I1 & I2 & I3); [cbn in Hl; lia| |].
        { intros j q' w' Hq' Hw'. replace (S k + j)%nat with (k + S j)%nat by lia. apply Hn; assumption. }
        rewrite app_length, I1, HL. split; [lia|]. split; [intros _; destruct ws; [cbn [length]; nia|specialize (I2 ltac:(discriminate)); nia]|].
        rewrite psum_cons, I3, Hq, HL. unfold slice. rewrite <- (firstn_skipn L (skipn (k * L) G)) at 2. rewrite msm_app by (rewrite firstn_length, skipn_length; nia).
        rewrite skipn_skipn'. replace (L + k * L)%nat with (S k * L)%nat by lia. reflexivity. }
    destruct (Gen ws qs 0%nat Hl Hn) as (I1 & I2 & I3). split; [exact I1|]. exists G. split; [exact HG|]. split; [apply I2, Hne|exact I3].
  Qed.
  Lemma nodes_vec L (prm0 : SLParams P0) (prm1 : SLParams P1) qs ws r : nodes_ok L prm0 prm1 qs ws -> ws <> [] ->
    vadd (psum qs) (vsmul r (pcB_blinding (sl_pc prm0))) = vec_commitment (sl_pc prm0) (sl_bp prm0) r (concat (map w_siblings ws)).
  Proof. intros H Hne. destruct (nodes_sum _ _ _ _ _ H Hne) as (_ & G & HG & _ & Hs). unfold vec_commitment. rewrite (nth_error_nth _ _ _ HG), Hs. apply vadd_comm. Qed.

  Lemma src_match (prm0 : SLParams P0) (prm1 : SLParams P1) L M ws pr src qs (gp : list (LC F0) -> Prog F0 unit) gv : nodes_ok L prm0 prm1 qs ws -> length ws = M -> (0 < M)%nat ->
    (pr = 0 /\ src = inl (concat (map w_siblings ws))) \/ (pr <> 0 /\ src = inr ((L * M)%nat, vadd (psum qs) (vsmul pr (pcB_blinding (sl_pc prm0))))) ->
    (forall vars, simg eq (gp vars) (gv vars)) ->
    src_len M L src = true /\ level_match (V := P0) (sl_pc prm0) (sl_bp prm0) (mkPL (concat (map w_siblings ws)) pr gp) (mkVL src gv).
  Proof.
    intros Hn HM H0 Hsrc Hsim. assert (Hne : ws <> []) by (intros ->; cbn in HM; lia). destruct (nodes_sum _ _ _ _ _ Hn Hne) as (Hlen & _). rewrite HM in Hlen. destruct Hsrc as [[-> ->]|[Hpr ->]].
    - cbn [src_len]. rewrite Hlen, Nat.eqb_refl. split; [reflexivity|]. constructor; cbn [pl_xs pl_r pl_gadget vl_src vl_gadget]; [|exact Hsim].
      replace (feqb (0 : F0) 0) with true by (symmetry; apply feqb_true; reflexivity). reflexivity.
    - cbn [src_len]. rewrite (Nat.mul_comm L M), Nat.eqb_refl. split; [reflexivity|]. constructor; cbn [pl_xs pl_r pl_gadget vl_src vl_gadget]; [|exact Hsim].
      replace (feqb pr 0) with false by (symmetry; apply feqb_false; exact Hpr). rewrite (nodes_vec _ _ _ _ _ pr Hn Hne), Hlen. reflexivity.
  Qed.

  (** a level the prover got through has an admissible scalar *)
  Lemma batched_scalar (E0 : TrEnv P0) (prm1 : SLParams P1) L M sum vars (Ps : list P1) cr s s' u : sl_good prm1 -> (0 < L)%nat -> (0 < M)%nat -> length vars = (M * L)%nat -> length Ps = M ->
    prun E0 (single_level_batched M prm1 sum vars (Some Ps) (Some cr)) s = Some (s', u) -> ~ exceptional cr.
  Proof.
    intros Hg HL HM Hv HP. destruct (split_chunks L M vars Hv) as (chunks & -> & Hc & HF). rewrite <- Hc in *. intros R. revert s s' u R.
    cut (pret E0 (single_level_batched (length chunks) prm1 sum (concat chunks) (Some Ps) (Some cr)) (fun _ => ~ exceptional cr)); [intros H s s' u R; exact (H s s' u R)|].
    assert (Hne : chunks <> []) by (intros ->; cbn in HM; lia).
    unfold single_level_batched. apply pret_bind with (R := fun _ => ~ exceptional cr); [|intros a Ha s s' b _; exact Ha].
    rewrite (batched_unfold false v0 L) by assumption. cbn [option_map].
    eapply pret_bind; [apply (batched_loop_finishes E0 prm1 Ps chunks 0 _ v0); reflexivity|].
    intros [sx sy sw] (Ps' & _ & _ & H0 & _). destruct (H0 eq_refl eq_refl) as [_ Hw]. cbn [pr_w] in Hw. subst sw. cbv zeta. intros s s' b Hr (k & Hk & Hcol).
    pose proof (proj2 (proj2 Hg)) as Hgt. pose proof (good_h _ _ Hgt) as Hh.
    destruct (rerand_finishes E0 (pcB_blinding (sl_pc prm1)) (sl_tables prm1) false v0 cr _ _ _ _ _ Hgt _ _ _ Hr) as (H4 & _).
    destruct (H4 k ltac:(lia)) as [N1 N2]. rewrite acc_pt_0 in N1, N2. unfold win_pt in *. rewrite fZ_smul_opp in N2. destruct Hcol as [Hx|Hx].
    - apply N1. apply fZ_smul_eq; [exact Hh|exact Hx].
    - apply N2. apply fZ_smul_eq; [exact Hh|]. rewrite <- Hx. f_equal. lia.
  Qed.
  Lemma level_scalar (E0 : TrEnv P0) pc g (prm0 : SLParams P0) (prm1 : SLParams P1) L M ps i pr cr qs (ws : list (Wit F0 P1)) s s' : sl_good prm1 -> (0 < L)%nat -> (0 < M)%nat -> length ws = M -> nodes_ok L prm0 prm1 qs ws ->
    prove_levels E0 pc g s ps = Some s' -> nth_error ps i = Some (batched_level M prm1 pr cr ws) -> cr <> 0.
  Proof.
    intros Hg HL HM Hw Hn H Hi Hz. apply levels_each in H. rewrite Forall_forall in H. apply nth_error_In in Hi. destruct (H _ Hi) as (s1 & s2 & vars & Hv & R). unfold batched_level in Hv, R. cbn [pl_xs pl_gadget] in Hv, R.
    assert (Hne : ws <> []) by (intros ->; cbn in Hw; lia). destruct (nodes_sum _ _ _ _ _ Hn Hne) as (Hlen & _). rewrite Hlen, Hw in Hv.
    eapply (batched_scalar E0 prm1 L M); try exact R; [exact Hg|exact HL|exact HM|exact Hv|rewrite map_length; exact Hw|]. rewrite Hz. apply zero_exceptional. eapply good_windows. exact (proj2 (proj2 Hg)).
  Qed.

  (** ** Honest batched levels *)
  (** A scalar with which the sum of several points can be re-randomized. *)
  Definition badmissible (prm : SLParams P1) (children : list P1) (r : F1) : Prop :=
    let Ps := map (fun c => vadd c (sl_delta prm)) children in let h := pcB_blinding (sl_pc prm) in
    ~ exceptional r /\ Forall (fun P => P <> v0) Ps /\ sums_apart true v0 Ps /\ vsmul r h <> psum Ps /\ vsmul r h <> vopp (psum Ps).
  Lemma psum_shift (delta : P1) (l : list P1) : psum (map (fun c => vadd c delta) l) = vadd (psum l) (vsmul (fN (N.of_nat (length l))) delta).
  Proof.
    induction l as [|c l IH]; cbn [map length]; [cbn [psum fold_right]; cbn [N.of_nat fN]; rewrite vsmul_0_l, vadd_0_r; reflexivity|].
    rewrite !psum_cons, IH. rewrite Nat2N.inj_succ, fN_succ. vring.
  Qed.
  Lemma concat_same {A} (L : nat) : forall l m : list (list A), length l = length m -> Forall (fun c => length c = L) l -> Forall (fun c => length c = L) m -> concat l = concat m -> l = m.
  Proof.
    induction l as [|a l IH]; intros [|b m] Hl HF HG He; try discriminate Hl; [reflexivity|]. inversion_clear HF. inversion_clear HG. cbn [concat] in He.
    assert (Hab : a = b). { rewrite <- (firstn_all a), <- (firstn_all b). transitivity (firstn L (a ++ concat l)); [rewrite firstn_app, H, Nat.sub_diag; cbn [firstn]; rewrite app_nil_r; congruence|]. rewrite He, firstn_app, H1, Nat.sub_diag. cbn [firstn]. rewrite app_nil_r. congruence. }
    subst b. apply app_inv_head in He. f_equal. apply IH; auto.
  Qed.
  Lemma batched_level_ok (E0 : TrEnv P0) (prm0 : SLParams P0) (prm1 : SLParams P1) L qs (ws : list (Wit F0 P1)) pr cr : sl_good prm1 -> sw_a P1 = 0 -> (0 < L)%nat -> ws <> [] ->
    nodes_ok L prm0 prm1 qs ws -> badmissible prm1 (map w_child ws) cr -> level_ok E0 (sl_bp prm0) (batched_level (length ws) prm1 pr cr ws).
  Proof.
    intros Hg H0 HL Hne Hn (Hex & Hnz & Hap & Hne1 & Hne2). destruct (nodes_sum _ _ _ _ _ Hn Hne) as (Hlen & G & HG & HlG & _).
    split; [intros EG; rewrite EG in HG; discriminate HG|]. unfold batched_level. split; cbn [pl_xs pl_gadget].
    - rewrite (nth_error_nth _ _ _ HG), Hlen. exact HlG.
    - intros n s vars Hh Hok Hvals. assert (Hlv : length vars = (length ws * L)%nat) by (rewrite <- Hlen, <- Hvals, map_length; reflexivity).
      destruct (split_chunks L (length ws) vars Hlv) as (chunks & -> & Hc & HF).
      assert (Hval : map (map (lc_val (p_asg s))) chunks = map w_siblings ws).
      { apply (concat_same L); [rewrite !map_length; exact Hc| | |rewrite <- concat_map; exact Hvals].
        - apply Forall_map. eapply Forall_impl; [|exact HF]. intros c Hcl. rewrite map_length. exact Hcl.
        - apply Forall_map, Forall_forall. intros w Hw. destruct (In_nth_error _ _ Hw) as (j & Hj). assert (Hjl : (j < length qs)%nat) by (rewrite (proj1 Hn); apply nth_error_Some; congruence).
          destruct (nth_error qs j) as [q|] eqn:Eq; [|apply nth_error_None in Eq; lia]. exact (proj1 (proj2 Hn j q w Eq Hj)). }
      set (Ps := map (fun w => vadd (w_child w) (sl_delta prm1)) ws). assert (EPs : map (fun c => vadd c (sl_delta prm1)) (map w_child ws) = Ps) by (unfold Ps; rewrite map_map; reflexivity). rewrite EPs in *.
      pose proof (proj2 (proj2 Hg)) as Hgt. set (h := pcB_blinding (sl_pc prm1)) in *. assert (Hsm : smooth h (windows (S:=F1)) v0 (digits_of cr)) by (eapply smooth_iff; eassumption).
      assert (Hchs : Forall (Forall (lc_ok (issued s))) chunks). { apply Forall_forall. intros c Hcin. apply Forall_forall. intros lc Hlc. rewrite Forall_forall in Hok. apply Hok. apply in_concat. exists c. auto. }
      destruct (prover_complete E0 (single_level_batched (length ws) prm1 (rerandomized_sum prm1 ws cr) (concat chunks) (Some Ps) (Some cr)) (fun _ _ _ => True) s Hh) as (s' & [] & R1 & R2 & R3 & _).
      + intros w Hw. unfold single_level_batched. apply wpc_bind. rewrite <- Hc. eapply (batched_complete w (agrees_one w s Hw) false v0 L).
        * exact HL.
        * intros ->. cbn in Hc. destruct ws; [congruence|discriminate Hc].
        * exact HF.
        * exact Hg.
        * exact H0.
        * discriminate.
        * exact Hsm.
        * rewrite vadd_0_l. exact Hne1.
        * rewrite vadd_0_l. exact Hne2.
        * apply Forall2_index; [unfold Ps; rewrite map_length; symmetry; exact Hc|]. intros j P chunk HP Hch. unfold Ps in HP. rewrite nth_error_map in HP. destruct (nth_error ws j) as [wj|] eqn:Ew; [|discriminate HP]. cbn in HP. apply Some_inj in HP. subst P.
          assert (Hjl : (j < length qs)%nat) by (rewrite (proj1 Hn); apply nth_error_Some; congruence). destruct (nth_error qs j) as [q|] eqn:Eq; [|apply nth_error_None in Eq; lia].
          destruct (proj2 Hn j q wj Eq Ew) as (_ & _ & Hin). assert (HP : vadd (w_child wj) (sl_delta prm1) <> v0). { rewrite Forall_forall in Hnz. apply Hnz. unfold Ps. apply in_map_iff. exists wj. split; [reflexivity|]. eapply nth_error_In; eassumption. }
          destruct (coords_some _ HP) as (x & y & Hxy). rewrite Hxy in Hin. cbn [fst] in Hin.
          assert (Es : w_siblings wj = map (lc_val (p_asg s)) chunk). { apply (f_equal (fun l => nth_error l j)) in Hval. rewrite !nth_error_map, Hch, Ew in Hval. cbn in Hval. apply Some_inj in Hval. congruence. }
          rewrite Es in Hin. apply in_map_iff in Hin as (c & Hcv & Hcin). exists x, y, c. split; [exact Hxy|]. split; [exact Hcin|]. rewrite (agrees_val w s); [exact Hcv|exact Hw|].
          rewrite Forall_forall in Hchs. pose proof (Hchs chunk (nth_error_In _ _ Hch)) as Hx. rewrite Forall_forall in Hx. apply Hx, Hcin.
        * exact Hap.
        * unfold rerandomized_sum. rewrite sum_children_psum, vadd_0_l. fold h. rewrite <- EPs, psum_shift, map_length, Hc. vring.
        * apply issued_one.
        * exact Hchs.
        * intros; exact I.
      + eauto.
  Qed.
  (** the leaves *)
  Lemma leaves_loop_total {n} (E0 : TrEnv P0) (prm0 : SLParams P0) (prm1 : SLParams P1) enc L qs rs : sl_good prm1 -> sw_a P1 = 0 -> forall (ws ws0 : list (Wit F0 P1)) chunks i s, skipn i ws0 = ws -> nodes_ok L prm0 prm1 qs ws0 ->
    (forall j w, nth_error ws0 j = Some w -> admissible prm1 (w_child w) (rs j)) -> honest_from n s -> Forall (Forall (lc_ok (issued s))) chunks -> map (map (lc_val (p_asg s))) chunks = map w_siblings ws ->
    exists s', prun E0 (leaves_loop enc prm1 (imap (fun j w => rerandomized prm1 w (rs j)) 0 ws0) (Some (imap (fun j w => (w_child w, rs j)) 0 ws0)) i chunks) s = Some (s', tt) /\ honest_from n s' /\ keeps s s'.
  Proof.
    intros Hg H0. induction ws as [|w ws IH]; intros ws0 chunks i s Hsk Hn Ha Hh Hok Hv.
    - destruct chunks; [|discriminate Hv]. cbn [leaves_loop prun]. exists s. split; [reflexivity|]. split; [exact Hh|]. intros u Hu. auto.
    - destruct chunks as [|c chunks]; [discriminate Hv|]. cbn [map] in Hv. assert (Ev : map (lc_val (p_asg s)) c = w_siblings w) by congruence. assert (Evs : map (map (lc_val (p_asg s))) chunks = map w_siblings ws) by congruence.
      assert (Hi : nth_error ws0 i = Some w) by (rewrite <- (Nat.add_0_r i), <- nth_error_skipn', Hsk; reflexivity).
      cbn [leaves_loop]. rewrite !imap_nth, Hi. cbn [option_map punwrap Nat.add fst snd]. inversion Hok as [|? ? Hok1 Hok2]; subst.
      assert (Hjl : (i < length qs)%nat) by (rewrite (proj1 Hn); apply nth_error_Some; congruence). destruct (nth_error qs i) as [q|] eqn:Eq; [|apply nth_error_None in Eq; lia].
      destruct (Ha i w Hi) as (A1 & A2 & A3 & A4).
      destruct (proj2 (proj2 (single_level_ok E0 prm0 prm1 enc L i q w 0 (rs i) Hg H0 (proj2 Hn i q w Eq Hi) A1 A2 A3 A4)) n s c Hh Hok1 Ev) as (s1 & R1 & Hh1 & Hk1). cbn [pl_gadget] in R1.
      destruct (IH ws0 chunks (i + 1)%nat s1) as (s2 & R2 & Hh2 & Hk2); auto.
      { rewrite <- skipn_skipn'', Hsk. reflexivity. }
      { eapply Forall_impl; [|exact Hok2]. intros l Hl. eapply Forall_impl; [|exact Hl]. intros lc Hlc. eapply lc_ok_sub; [|exact Hlc]. intros u Hu. apply Hk1, Hu. }
      { rewrite <- Evs. apply map_ext_in. intros l Hl. apply map_ext_in. intros lc Hlc. apply (keeps_val _ _ _ Hk1). rewrite Forall_forall in Hok2. pose proof (Hok2 l Hl) as Hx. rewrite Forall_forall in Hx. apply Hx, Hlc. }
      exists s2. rewrite prun_bind, R1. split; [exact R2|]. split; [exact Hh2|]. eapply keeps_trans; eassumption.
  Qed.
  Lemma leaves_level_ok (E0 : TrEnv P0) (prm0 : SLParams P0) (prm1 : SLParams P1) enc L qs (ws : list (Wit F0 P1)) pr rs : sl_good prm1 -> sw_a P1 = 0 -> (0 < L)%nat -> ws <> [] ->
    nodes_ok L prm0 prm1 qs ws -> (forall j w, nth_error ws j = Some w -> admissible prm1 (w_child w) (rs j)) ->
    level_ok E0 (sl_bp prm0) (mkPL (concat (map w_siblings ws)) pr (leaves_gadget (length ws) enc prm1 (imap (fun j w => rerandomized prm1 w (rs j)) 0 ws) (Some (imap (fun j w => (w_child w, rs j)) 0 ws)))).
  Proof.
    intros Hg H0 HL Hne Hn Ha. destruct (nodes_sum _ _ _ _ _ Hn Hne) as (Hlen & G & HG & HlG & _).
    split; [intros EG; rewrite EG in HG; discriminate HG|]. split; cbn [pl_xs pl_gadget].
    - rewrite (nth_error_nth _ _ _ HG), Hlen. exact HlG.
    - intros n s vars Hh Hok Hvals. assert (Hlv : length vars = (length ws * L)%nat) by (rewrite <- Hlen, <- Hvals, map_length; reflexivity).
      destruct (split_chunks L (length ws) vars Hlv) as (chunks & -> & Hc & HF).
      assert (Hval : map (map (lc_val (p_asg s))) chunks = map w_siblings ws).
      { apply (concat_same L); [rewrite !map_length; exact Hc| | |rewrite <- concat_map; exact Hvals].
        - apply Forall_map. eapply Forall_impl; [|exact HF]. intros c Hcl. rewrite map_length. exact Hcl.
        - apply Forall_map, Forall_forall. intros w Hw. destruct (In_nth_error _ _ Hw) as (j & Hj). assert (Hjl : (j < length qs)%nat) by (rewrite (proj1 Hn); apply nth_error_Some; congruence).
          destruct (nth_error qs j) as [q|] eqn:Eq; [|apply nth_error_None in Eq; lia]. exact (proj1 (proj2 Hn j q w Eq Hj)). }
      unfold leaves_gadget. assert (Hm : (0 < length ws)%nat) by (destruct ws; [congruence|cbn; lia]). rewrite Hlv, Nat.mul_comm, Nat.div_mul by lia. destruct (Nat.eqb_spec (length ws) 0); [lia|]. destruct (Nat.eqb_spec L 0); [lia|]. cbn [orb].
      rewrite chunks_exact_concat; [|exact HL|exact HF|rewrite Hc; nia].
      apply (leaves_loop_total E0 prm0 prm1 enc L qs rs Hg H0 ws ws); [reflexivity|exact Hn|exact Ha|exact Hh| |exact Hval].
      apply Forall_forall. intros c Hcin. apply Forall_forall. intros lc Hlc. rewrite Forall_forall in Hok. apply Hok. apply in_concat. exists c. auto.
  Qed.
End BMatch.

(** ** M paths and the verifier's levels *)
Section MPathRun.
  Context {F0 F1 : PField} {P0 : SWCurve F1 F0} {P1 : SWCurve F0 F1}.
  Variables (E0 : TrEnv P0) (E1 : TrEnv P1) (enc0 : P0 -> bytes).
  Implicit Types (prm : SRParams P0 P1) (t : CurveTree P0 P1).

  (** the paths [ws] open the tree [t] at [leaves] *)
  Definition paths_ok L prm t d (ws : list (list (Wit F0 P1) * list (Wit F1 P0))) (leaves : list P0) : Prop :=
    length leaves = length ws /\ forall j e o leaf, nth_error ws j = Some (e, o) -> nth_error leaves j = Some leaf ->
      exists root, t_commitment t j = Some root /\ t_opens L j d prm root e o leaf /\ root_public prm t j e o.
  Lemma sum_roots_psum {A : Type} {F : PField} {C : VSpace F} M (n : Node C A) roots : Forall2 (fun j c => n_commitment n j = Some c) (seq 0 M) roots -> sum_roots M n = Some (psum roots).
  Proof.
    intros H. unfold sum_roots. rewrite (all_some_Forall2 _ _ _ H). cbn [opt_bind]. rewrite fold_vadd, vadd_0_l. reflexivity.
  Qed.
  (** the roots of all paths lie on the same curve *)
  Lemma paths_roots_even L prm ct d ws leaves : paths_ok L prm (TEven ct) d ws leaves -> exists roots, Forall2 (fun j c => n_commitment ct j = Some c) (seq 0 (length ws)) roots /\ length roots = length ws /\
    (forall j r e o, nth_error roots j = Some r -> nth_error (map fst ws) j = Some e -> nth_error (map snd ws) j = Some o -> exists leaf, nth_error leaves j = Some leaf /\ opens L j d (even_p prm) (odd_p prm) r e o (inl leaf)).
  Proof.
    intros [Hl H]. destruct (all_some_total (n_commitment ct) (seq 0 (length ws))) as (roots & Hr).
    - intros j Hj. apply in_seq in Hj. destruct (nth_error ws j) as [[e o]|] eqn:Ew; [|apply nth_error_None in Ew; lia]. destruct (nth_error leaves j) as [leaf|] eqn:El; [|apply nth_error_None in El; lia].
      destruct (H j e o leaf Ew El) as (root & Hc & _). cbn [t_commitment] in Hc. destruct (n_commitment ct j) as [c|]; [eauto|discriminate Hc].
    - destruct (all_some_map_nth _ _ _ Hr) as [Lr Nr]. rewrite seq_length in Lr. exists roots. split; [|split; [exact Lr|]].
      + apply Forall2_index; [rewrite seq_length; congruence|]. intros i a b Ha Hb. destruct (Nr i a Ha) as (b' & Hb' & Hf). congruence.
      + intros j r e o Hj He Ho. rewrite nth_error_map in He, Ho. destruct (nth_error ws j) as [[e' o']|] eqn:Ew; [|discriminate He]. cbn in He, Ho. apply Some_inj in He, Ho. subst e' o'.
        destruct (nth_error leaves j) as [leaf|] eqn:El; [|apply nth_error_None in El; assert (j < length ws)%nat by (apply nth_error_Some; congruence); lia].
        destruct (H j e o leaf Ew El) as (root & Hc & Hop & _). exists leaf. split; [reflexivity|].
        assert (Hs : nth_error (seq 0 (length ws)) j = Some j). { rewrite nth_error_nth' with (d := 0%nat); rewrite ?seq_length; [rewrite seq_nth; [reflexivity|]|]; apply nth_error_Some; congruence. }
        destruct (Nr j j Hs) as (c & Hc1 & Hc2). rewrite Hj in Hc1. apply Some_inj in Hc1. subst c. cbn [t_commitment] in Hc. rewrite Hc2 in Hc. apply Some_inj in Hc. subst root. exact Hop.
  Qed.
  Lemma paths_roots_odd L prm ct d ws leaves : paths_ok L prm (TOdd ct) d ws leaves -> exists roots, Forall2 (fun j c => n_commitment ct j = Some c) (seq 0 (length ws)) roots /\ length roots = length ws /\
    (forall j r e o, nth_error roots j = Some r -> nth_error (map fst ws) j = Some e -> nth_error (map snd ws) j = Some o -> exists leaf, nth_error leaves j = Some leaf /\ opens L j d (odd_p prm) (even_p prm) r o e (inr leaf)).
  Proof.
    intros [Hl H]. destruct (all_some_total (n_commitment ct) (seq 0 (length ws))) as (roots & Hr).
    - intros j Hj. apply in_seq in Hj. destruct (nth_error ws j) as [[e o]|] eqn:Ew; [|apply nth_error_None in Ew; lia]. destruct (nth_error leaves j) as [leaf|] eqn:El; [|apply nth_error_None in El; lia].
      destruct (H j e o leaf Ew El) as (root & Hc & _). cbn [t_commitment] in Hc. destruct (n_commitment ct j) as [c|]; [eauto|discriminate Hc].
    - destruct (all_some_map_nth _ _ _ Hr) as [Lr Nr]. rewrite seq_length in Lr. exists roots. split; [|split; [exact Lr|]].
      + apply Forall2_index; [rewrite seq_length; congruence|]. intros i a b Ha Hb. destruct (Nr i a Ha) as (b' & Hb' & Hf). congruence.
      + intros j r e o Hj He Ho. rewrite nth_error_map in He, Ho. destruct (nth_error ws j) as [[e' o']|] eqn:Ew; [|discriminate He]. cbn in He, Ho. apply Some_inj in He, Ho. subst e' o'.
        destruct (nth_error leaves j) as [leaf|] eqn:El; [|apply nth_error_None in El; assert (j < length ws)%nat by (apply nth_error_Some; congruence); lia].
        destruct (H j e o leaf Ew El) as (root & Hc & Hop & _). exists leaf. split; [reflexivity|].
        assert (Hs : nth_error (seq 0 (length ws)) j = Some j). { rewrite nth_error_nth' with (d := 0%nat); rewrite ?seq_length; [rewrite seq_nth; [reflexivity|]|]; apply nth_error_Some; congruence. }
        destruct (Nr j j Hs) as (c & Hc1 & Hc2). rewrite Hj in Hc1. apply Some_inj in Hc1. subst c. cbn [t_commitment] in Hc. rewrite Hc2 in Hc. apply Some_inj in Hc. subst root. exact Hop.
  Qed.
  (** the public children of all roots are the siblings of the first nodes *)
  Lemma paths_public_even L prm ct d ws leaves n evens nodes : paths_ok L prm (TEven ct) d ws leaves -> transpose n (map fst ws) = Some evens -> nth_error evens 0 = Some nodes ->
    m_root_xs_even (length ws) prm (TEven ct) = Some (concat (map w_siblings nodes)).
  Proof.
    intros [Hl H] Ht Hn. destruct (proj2 (transpose_nth _ _ _ Ht) 0%nat nodes Hn) as [Hln Hw]. rewrite map_length in Hln. unfold m_root_xs_even.
    rewrite (all_some_Forall2 _ _ (map w_siblings nodes)); [reflexivity|]. apply Forall2_index; [rewrite seq_length, map_length; congruence|].
    intros j a b Ha Hb. apply seq_index in Ha as [-> Hj]. rewrite nth_error_map in Hb. destruct (nth_error nodes j) as [w|] eqn:Ew; [|discriminate Hb]. cbn in Hb. apply Some_inj in Hb. subst b.
    destruct (nth_error ws j) as [[e o]|] eqn:Ep; [|apply nth_error_None in Ep; lia]. destruct (nth_error leaves j) as [leaf|] eqn:El; [|apply nth_error_None in El; lia].
    destruct (H j e o leaf Ep El) as (_ & _ & _ & w' & Hw' & Hx). destruct (Hw j e) as (w2 & H2 & H3); [rewrite nth_error_map, Ep; reflexivity|]. rewrite Hw' in H3. apply Some_inj in H3. subst w2. rewrite Ew in H2. apply Some_inj in H2. subst w'. exact Hx.
  Qed.
  Lemma paths_public_odd L prm ct d ws leaves n odds nodes : paths_ok L prm (TOdd ct) d ws leaves -> transpose n (map snd ws) = Some odds -> nth_error odds 0 = Some nodes ->
    m_root_xs_odd (length ws) prm (TOdd ct) = Some (concat (map w_siblings nodes)).
  Proof.
    intros [Hl H] Ht Hn. destruct (proj2 (transpose_nth _ _ _ Ht) 0%nat nodes Hn) as [Hln Hw]. rewrite map_length in Hln. unfold m_root_xs_odd.
    rewrite (all_some_Forall2 _ _ (map w_siblings nodes)); [reflexivity|]. apply Forall2_index; [rewrite seq_length, map_length; congruence|].
    intros j a b Ha Hb. apply seq_index in Ha as [-> Hj]. rewrite nth_error_map in Hb. destruct (nth_error nodes j) as [w|] eqn:Ew; [|discriminate Hb]. cbn in Hb. apply Some_inj in Hb. subst b.
    destruct (nth_error ws j) as [[e o]|] eqn:Ep; [|apply nth_error_None in Ep; lia]. destruct (nth_error leaves j) as [leaf|] eqn:El; [|apply nth_error_None in El; lia].
    destruct (H j e o leaf Ep El) as (_ & _ & _ & w' & Hw' & Hx). destruct (Hw j o) as (w2 & H2 & H3); [rewrite nth_error_map, Ep; reflexivity|]. rewrite Hw' in H3. apply Some_inj in H3. subst w2. rewrite Ew in H2. apply Some_inj in H2. subst w'. exact Hx.
  Qed.

  (** the leaves are the children of the last odd nodes *)
  Lemma leaves_last (ops : list (list (Wit F1 P0))) leaves n odds last_nodes : transpose n ops = Some odds -> (0 < n)%nat -> length leaves = length ops ->
    (forall j o leaf, nth_error ops j = Some o -> nth_error leaves j = Some leaf -> exists w, nth_error o (n - 1) = Some w /\ leaf = w_child w) ->
    nth_error odds (n - 1) = Some last_nodes -> leaves = map w_child last_nodes.
  Proof.
    intros Ht Hn Hl H Hlast. destruct (proj2 (transpose_nth _ _ _ Ht) _ _ Hlast) as [Hll Hw]. apply nth_error_ext. intros j. rewrite nth_error_map.
    destruct (nth_error leaves j) as [leaf|] eqn:El.
    - destruct (nth_error ops j) as [o|] eqn:Eo; [|apply nth_error_None in Eo; assert (j < length leaves)%nat by (apply nth_error_Some; congruence); lia].
      destruct (H j o leaf Eo El) as (w & Hw1 & ->). destruct (Hw j o Eo) as (w' & Hw2 & Hw3). rewrite Hw1 in Hw3. apply Some_inj in Hw3. subst w'. rewrite Hw2. reflexivity.
    - apply nth_error_None in El. assert (El' : (length last_nodes <= j)%nat) by lia. apply nth_error_None in El'. rewrite El'. reflexivity.
  Qed.

  Lemma msr_lockstep dbg L prm t d ws leaves n m evens odds os es ls tr0 tr1 s0 s1 (t0 : VState P0) (t1 : VState P1) s0' s1' p rs : (0 < L)%nat ->
    sl_good (even_p prm) -> sl_good (odd_p prm) -> ws <> [] -> paths_ok L prm t d ws leaves -> d <> 0%nat ->
    transpose n (map fst ws) = Some evens -> transpose m (map snd ws) = Some odds -> n = (if t_is_even t then next_length 2 d else d / 2)%nat -> m = (if t_is_even t then d / 2 else next_length 2 d)%nat ->
    (t_is_even t = Nat.even d) -> (dbg = true -> t_height t = d) ->
    session E0 (sl_pc (even_p prm)) (sl_bp (even_p prm)) tr0 s0 t0 -> session E1 (sl_pc (odd_p prm)) (sl_bp (odd_p prm)) tr1 s1 t1 ->
    msr_prove E0 E1 enc0 (length ws) (sl_pc (even_p prm)) (sl_pc (odd_p prm)) prm evens odds os es ls s0 s1 = Some (s0', s1', (p, rs)) ->
    exists (t0' : VState P0) (t1' : VState P1), msr_verify E0 E1 enc0 dbg L (length ws) prm t p t0 t1 = Some (t0', t1', mp_selected p) /\
      session E0 (sl_pc (even_p prm)) (sl_bp (even_p prm)) tr0 s0' t0' /\ session E1 (sl_pc (odd_p prm)) (sl_bp (odd_p prm)) tr1 s1' t1' /\
      mp_selected p = imap (fun j leaf => vadd leaf (vsmul (ls j) (pcB_blinding (sl_pc (even_p prm))))) 0 leaves /\ rs = map ls (seq 0 (length ws)).
  Proof.
    intros HL Hg0 Hg1 Hne Hpaths Hd Ht0 Ht1 Hn Hm Hpar Hdbg Hses0 Hses1 Hprove. unfold msr_prove in Hprove. set (M := length ws) in *.
    assert (HM : (0 < M)%nat) by (unfold M; destruct ws; [congruence|cbn; lia]).
    destruct (root_is_even evens odds) as [top|] eqn:Etop; [|discriminate Hprove]. cbn [opt_bind] in Hprove.
    destruct (prove_levels E0 _ _ s0 _) as [s0''|] eqn:H0; [|discriminate Hprove]. cbn [opt_bind] in Hprove.
    destruct (prove_levels E1 _ _ s1 _) as [s1''|] eqn:H1; [|discriminate Hprove]. cbn [opt_bind] in Hprove.
    apply Some_inj in Hprove. unfold make_mpath in Hprove. apply pair_inj in Hprove as [Hss Hprove]. apply pair_inj in Hss as [-> ->]. apply pair_inj in Hprove as [<- <-].
    unfold make_mpath in H1. cbn [fst mp_selected] in H1.
    set (sel := match odds with [] => repeat v0 M | _ => imap (fun i w => rerandomized (even_p prm) w (ls i)) 0 (last odds []) end) in *.
    set (ev := imap (fun i ws => rerandomized_sum (even_p prm) ws (es i)) 0 (removelast odds)) in *. set (od := imap (fun i ws => rerandomized_sum (odd_p prm) ws (os i)) 0 evens) in *.
    assert (Lev : length ev = (length odds - 1)%nat) by (unfold ev; rewrite imap_length, removelast_len; reflexivity). assert (Lod : length od = length evens) by apply imap_length.
    assert (Nev : forall i w, (i < length odds - 1)%nat -> nth_error odds i = Some w -> nth_error ev i = Some (rerandomized_sum (even_p prm) w (es i))).
    { intros i w Hi Hw. unfold ev. rewrite imap_nth, removelast_nth. destruct (Nat.ltb_spec i (length odds - 1)); [|lia]. rewrite Hw. reflexivity. }
    assert (Nod : forall i w, nth_error evens i = Some w -> nth_error od i = Some (rerandomized_sum (odd_p prm) w (os i))) by (intros i w Hw; unfold od; rewrite imap_nth, Hw; reflexivity).
    destruct (transpose_nth _ _ _ Ht0) as [Len Tn]. destruct (transpose_nth _ _ _ Ht1) as [Lom Tm].
    assert (Hm1 : (1 <= m)%nat). { pose proof (halves d). pose proof (halves_le d). subst m. destruct (t_is_even t); [|lia]. destruct d as [|[|d]]; [congruence|discriminate Hpar|]. change (S (S d))%nat with (2 + d)%nat. replace (2 + d)%nat with (d + 1 * 2)%nat by lia. rewrite Nat.div_add by lia. lia. }
    destruct (nth_error odds (m - 1)) as [lastn|] eqn:Elast; [|apply nth_error_None in Elast; lia].
    assert (Esel : sel = imap (fun i w => rerandomized (even_p prm) w (ls i)) 0 lastn).
    { unfold sel. rewrite (last_nth odds [] lastn) by (rewrite Lom; exact Elast). destruct odds; [cbn in Lom; lia|reflexivity]. }
    assert (Ers : (match odds with [] => repeat 0 M | _ :: _ => map ls (seq 0 M) end) = map ls (seq 0 M)) by (destruct odds; [cbn in Lom; lia|reflexivity]). rewrite Ers.
    destruct t as [ct|ct]; cbn [t_is_even] in *.
    - destruct (paths_roots_even _ _ _ _ _ _ Hpaths) as (roots & Hroots & Lr & Hop). fold M in Hroots.
      destruct (mopens_index L d F0 F1 P0 P1 (even_p prm) (odd_p prm) roots (map fst ws) (map snd ws) n m evens odds) as [IA IB]; try assumption.
      { intros ->. cbn in Lr. fold M in Lr. lia. } { rewrite map_length. congruence. } { rewrite map_length. congruence. }
      { intros j r e o Hj He Ho. destruct (Hop j r e o Hj He Ho) as (leaf & _ & Hl). eauto. }
      rewrite Lr in IA, IB. fold M in IA, IB.
      assert (Hlen : length evens = length odds).
      { destruct (nth_error ws 0) as [[e o]|] eqn:X1; [|apply nth_error_None in X1; fold M in X1; lia]. destruct (nth_error roots 0) as [r|] eqn:X2; [|apply nth_error_None in X2; fold M in Lr; lia].
        destruct (Hop 0%nat r e o X2) as (leaf & _ & Hl); [rewrite nth_error_map, X1; reflexivity|rewrite nth_error_map, X1; reflexivity|]. destruct (opens_leaf _ _ _ _ _ _ _ _ _ _ _ _ _ Hl) as [Hx _]. destruct (opens_lengths _ _ _ _ _ _ _ _ _ _ _ _ _ Hl). lia. }
      unfold root_is_even in Etop. rewrite Hlen, Nat.eqb_refl in Etop. apply Some_inj in Etop. subst top. cbn [negb] in H1.
      assert (Zos : forall i, (i < length evens)%nat -> os i <> 0).
      { intros i Hi. destruct (nth_error evens i) as [nd|] eqn:En; [|apply nth_error_None in En; lia]. destruct (IA i nd En) as (Hln & qs & Hq & _).
        eapply (level_scalar E0 _ _ (even_p prm) (odd_p prm) L M _ i); [exact Hg1|exact HL|exact HM|exact Hln|exact Hq|exact H0|]. unfold m_even_levels. rewrite imap_nth, En. reflexivity. }
      assert (Zes : forall i, (i < length odds - 1)%nat -> es i <> 0).
      { intros i Hi. destruct (nth_error odds i) as [nd|] eqn:En; [|apply nth_error_None in En; lia]. destruct (IB i nd En) as (Hln & vs & _ & Hq).
        eapply (level_scalar E1 _ _ (odd_p prm) (even_p prm) L M _ i); [exact Hg0|exact HL|exact HM|exact Hln|exact Hq|exact H1|]. unfold m_odd_levels. rewrite imap_nth, En. cbn [option_map Nat.add]. destruct (Nat.ltb_spec i (length odds - 1)); [reflexivity|lia]. }
      unfold msr_verify, m_verification_commitments. cbn [mp_even mp_odd mp_selected]. rewrite Lev, Lod, Hlen.
      replace (length odds - 1 + 1)%nat with (length odds) by lia. rewrite Nat.eqb_refl. cbn [guard]. rewrite (sum_roots_psum _ _ _ Hroots). cbn [opt_bind mp_even mp_odd mp_selected length].
      rewrite Lev, Lod, Hlen. replace (S (length odds - 1) + length odds)%nat with d by (pose proof (halves d); lia).
      assert (Edbg : (dbg && negb (t_height (TEven ct) =? d)%nat)%bool = false). { destruct dbg; [|reflexivity]. rewrite (Hdbg eq_refl), Nat.eqb_refl. reflexivity. }
      rewrite Edbg. unfold m_root_is_odd. cbn [mp_even mp_odd length]. rewrite Lev, Lod, Hlen.
      destruct (Nat.eqb_spec (S (length odds - 1) + 1) (length odds)) as [Hx|_]; [lia|]. replace (S (length odds - 1)) with (length odds) by lia. rewrite Nat.eqb_refl. cbn [guard opt_bind].
      unfold m_even_vlevels, m_odd_vlevels. cbn [mp_even mp_odd mp_selected].
      match goal with |- context [all_some (imap ?fv 0 (psum roots :: ev))] =>
        destruct (levels_pair (level_match (V := P0) (sl_pc (even_p prm)) (sl_bp (even_p prm)))
          (fun i nd => batched_level M (odd_p prm) (parent_scalar true es i) (os i) nd) fv evens (psum roots :: ev) 0) as (lv0 & Hlv0 & HF0) end.
      { cbn [length]. lia. }
      { intros k nd cc Hnd Hcc. cbn [Nat.add negb]. destruct (IA k nd Hnd) as (Hln & qs & Hq & Hqs). rewrite (Nod k nd Hnd). destruct k as [|k]; cbn [Nat.eqb andb nth_error] in *.
        - pose proof (paths_public_even _ _ _ _ _ _ _ _ _ Hpaths Ht0 Hnd) as Xp. fold M in Xp. rewrite Xp. cbn [option_map opt_bind].
          destruct (src_match (even_p prm) (odd_p prm) L M nd (parent_scalar true es 0) (inl (concat (map w_siblings nd))) qs
            (fun vars => single_level_batched M (odd_p prm) (rerandomized_sum (odd_p prm) nd (os 0%nat)) vars (Some (map (fun w => vadd (w_child w) (sl_delta (odd_p prm))) nd)) (Some (os 0%nat)))
            (fun vars => single_level_batched M (odd_p prm) (rerandomized_sum (odd_p prm) nd (os 0%nat)) vars None None) Hq Hln HM) as [X1 X2]; [left; split; reflexivity|intros vars; apply batched_level_sim|].
          rewrite X1. cbn [guard]. eexists. split; [reflexivity|]. exact X2.
        - cbn [opt_bind]. destruct Hqs as (vs & Hvs & ->). assert (Hk : (k < length odds - 1)%nat) by (rewrite <- Lev; apply nth_error_Some; congruence). rewrite (Nev k vs Hk Hvs) in Hcc. apply Some_inj in Hcc. subst cc.
          destruct (src_match (even_p prm) (odd_p prm) L M nd (es k) (inr ((L * M)%nat, rerandomized_sum (even_p prm) vs (es k))) (map w_child vs)
            (fun vars => single_level_batched M (odd_p prm) (rerandomized_sum (odd_p prm) nd (os (S k))) vars (Some (map (fun w => vadd (w_child w) (sl_delta (odd_p prm))) nd)) (Some (os (S k))))
            (fun vars => single_level_batched M (odd_p prm) (rerandomized_sum (odd_p prm) nd (os (S k))) vars None None) Hq Hln HM) as [X1 X2];
            [right; split; [apply Zes, Hk|unfold rerandomized_sum; rewrite sum_children_psum; reflexivity]|intros vars; apply batched_level_sim|].
          rewrite X1. cbn [guard]. eexists. split; [reflexivity|]. exact X2. }
      rewrite Hlv0. cbn [opt_bind]. destruct (levels_lockstep E0 _ _ tr0 _ _ _ _ _ HF0 Hses0 H0) as (t0' & Ht0' & Hs0). rewrite Ht0'. cbn [opt_bind].
      match goal with |- context [all_some (imap ?fv 0 od)] =>
        destruct (levels_pair (level_match (V := P1) (sl_pc (odd_p prm)) (sl_bp (odd_p prm)))
          (fun i nd => if (i <? length odds - 1)%nat then batched_level M (even_p prm) (parent_scalar false os i) (es i) nd
             else mkPL (concat (map w_siblings nd)) (parent_scalar false os i) (leaves_gadget M enc0 (even_p prm) sel (Some (imap (fun j w => (w_child w, ls j)) 0 nd)))) fv odds od 0) as (lv1 & Hlv1 & HF1) end.
      { lia. }
      { intros k nd cc Hnd Hcc. cbn [Nat.add]. destruct (IB k nd Hnd) as (Hln & vs & Hvs & Hq). rewrite (Nod k vs Hvs) in Hcc. apply Some_inj in Hcc. subst cc. rewrite Lod, Hlen, Bool.andb_false_r. cbn [opt_bind parent_scalar].
        assert (Zk : os k <> 0) by (apply Zos; apply nth_error_Some; congruence).
        destruct (Nat.ltb_spec k (length odds - 1)) as [Hlt|Hge].
        - replace (k + 1)%nat with (S k) by lia. cbn [nth_error]. rewrite (Nev k nd Hlt Hnd). cbn [opt_bind].
          destruct (src_match (odd_p prm) (even_p prm) L M nd (os k) (inr ((L * M)%nat, rerandomized_sum (odd_p prm) vs (os k))) (map w_child vs)
            (fun vars => single_level_batched M (even_p prm) (rerandomized_sum (even_p prm) nd (es k)) vars (Some (map (fun w => vadd (w_child w) (sl_delta (even_p prm))) nd)) (Some (es k)))
            (fun vars => single_level_batched M (even_p prm) (rerandomized_sum (even_p prm) nd (es k)) vars None None) Hq Hln HM) as [X1 X2];
            [right; split; [exact Zk|unfold rerandomized_sum; rewrite sum_children_psum; reflexivity]|intros vars; apply batched_level_sim|].
          rewrite X1. cbn [guard]. eexists. split; [reflexivity|]. exact X2.
        - destruct (src_match (odd_p prm) (even_p prm) L M nd (os k) (inr ((L * M)%nat, rerandomized_sum (odd_p prm) vs (os k))) (map w_child vs)
            (leaves_gadget M enc0 (even_p prm) sel (Some (imap (fun j w => (w_child w, ls j)) 0 nd))) (leaves_gadget M enc0 (even_p prm) sel None) Hq Hln HM) as [X1 X2];
            [right; split; [exact Zk|unfold rerandomized_sum; rewrite sum_children_psum; reflexivity]|intros vars; apply leaves_gadget_sim|].
          rewrite X1. cbn [guard]. eexists. split; [reflexivity|]. exact X2. }
      rewrite Hlv1. cbn [opt_bind]. destruct (levels_lockstep E1 _ _ tr1 _ _ _ _ _ HF1 Hses1 H1) as (t1' & Ht1' & Hs1). rewrite Ht1'. cbn [opt_bind].
      exists t0', t1'. split; [reflexivity|]. split; [exact Hs0|]. split; [exact Hs1|]. split; [|reflexivity].
      rewrite Esel. rewrite (leaves_last (map snd ws) leaves m odds lastn Ht1 ltac:(lia)); [|rewrite map_length; apply Hpaths| |exact Elast].
      + unfold rerandomized. generalize 0%nat. clear. induction lastn as [|w l IH]; intros i; cbn [imap map]; [reflexivity|]. rewrite IH. reflexivity.
      + intros j o leaf Ho Hleaf. rewrite nth_error_map in Ho. destruct (nth_error ws j) as [[e o']|] eqn:Ew; [|discriminate Ho]. cbn in Ho. apply Some_inj in Ho. subst o'.
        assert (Hj : (j < length roots)%nat) by (rewrite Lr; apply nth_error_Some; congruence). destruct (nth_error roots j) as [r|] eqn:Er; [|apply nth_error_None in Er; lia].
        destruct (Hop j r e o Er) as (leaf' & Hl' & Hx); [rewrite nth_error_map, Ew; reflexivity|rewrite nth_error_map, Ew; reflexivity|]. rewrite Hleaf in Hl'. apply Some_inj in Hl'. subst leaf'.
        destruct (opens_leaf _ _ _ _ _ _ _ _ _ _ _ _ _ Hx) as [_ [Hz|(w & Hw & Hc)]]; [contradiction|]. destruct (opens_lengths _ _ _ _ _ _ _ _ _ _ _ _ _ Hx) as [_ Hlo]. exists w. rewrite Hm, <- Hlo. auto.
    - destruct (paths_roots_odd _ _ _ _ _ _ Hpaths) as (roots & Hroots & Lr & Hop). fold M in Hroots.
      destruct (mopens_index L d F1 F0 P1 P0 (odd_p prm) (even_p prm) roots (map snd ws) (map fst ws) m n odds evens) as [IA IB]; try assumption.
      { intros ->. cbn in Lr. fold M in Lr. lia. } { rewrite map_length. congruence. } { rewrite map_length. congruence. }
      { intros j r e o Hj He Ho. destruct (Hop j r o e Hj Ho He) as (leaf & _ & Hl). eauto. }
      rewrite Lr in IA, IB. fold M in IA, IB.
      assert (Hlen : length odds = S (length evens)).
      { destruct (nth_error ws 0) as [[e o]|] eqn:X1; [|apply nth_error_None in X1; fold M in X1; lia]. destruct (nth_error roots 0) as [r|] eqn:X2; [|apply nth_error_None in X2; fold M in Lr; lia].
        destruct (Hop 0%nat r e o X2) as (leaf & _ & Hl); [rewrite nth_error_map, X1; reflexivity|rewrite nth_error_map, X1; reflexivity|]. destruct (opens_leaf _ _ _ _ _ _ _ _ _ _ _ _ _ Hl) as [Hx _]. destruct (opens_lengths _ _ _ _ _ _ _ _ _ _ _ _ _ Hl). lia. }
      unfold root_is_even in Etop. destruct (Nat.eqb_spec (length evens) (length odds)) as [Hx|_]; [lia|]. rewrite Nat.add_comm in Etop. cbn [Nat.add] in Etop. rewrite Hlen, Nat.eqb_refl in Etop. apply Some_inj in Etop. subst top. cbn [negb] in H1.
      assert (Zos : forall i, (i < length evens)%nat -> os i <> 0).
      { intros i Hi. destruct (nth_error evens i) as [nd|] eqn:En; [|apply nth_error_None in En; lia]. destruct (IB i nd En) as (Hln & vs & _ & Hq).
        eapply (level_scalar E0 _ _ (even_p prm) (odd_p prm) L M _ i); [exact Hg1|exact HL|exact HM|exact Hln|exact Hq|exact H0|]. unfold m_even_levels. rewrite imap_nth, En. reflexivity. }
      assert (Zes : forall i, (i < length odds - 1)%nat -> es i <> 0).
      { intros i Hi. destruct (nth_error odds i) as [nd|] eqn:En; [|apply nth_error_None in En; lia]. destruct (IA i nd En) as (Hln & qs & Hq & _).
        eapply (level_scalar E1 _ _ (odd_p prm) (even_p prm) L M _ i); [exact Hg0|exact HL|exact HM|exact Hln|exact Hq|exact H1|]. unfold m_odd_levels. rewrite imap_nth, En. cbn [option_map Nat.add]. destruct (Nat.ltb_spec i (length odds - 1)); [reflexivity|lia]. }
      unfold msr_verify, m_verification_commitments. cbn [mp_even mp_odd mp_selected]. rewrite Lev, Lod, Hlen.
      replace (S (length evens) - 1)%nat with (length evens) by lia. rewrite Nat.eqb_refl. cbn [guard]. rewrite (sum_roots_psum _ _ _ Hroots). cbn [opt_bind mp_even mp_odd mp_selected length].
      rewrite Lev, Lod, Hlen. replace (S (length evens) - 1 + S (length evens))%nat with d by (pose proof (halves d); lia).
      assert (Edbg : (dbg && negb (t_height (TOdd ct) =? d)%nat)%bool = false). { destruct dbg; [|reflexivity]. rewrite (Hdbg eq_refl), Nat.eqb_refl. reflexivity. }
      rewrite Edbg. unfold m_root_is_odd. cbn [mp_even mp_odd length]. rewrite Lev, Lod, Hlen.
      replace (S (length evens) - 1 + 1)%nat with (S (length evens)) by lia. rewrite Nat.eqb_refl. cbn [guard opt_bind].
      unfold m_even_vlevels, m_odd_vlevels. cbn [mp_even mp_odd mp_selected].
      match goal with |- context [all_some (imap ?fv 0 ev)] =>
        destruct (levels_pair (level_match (V := P0) (sl_pc (even_p prm)) (sl_bp (even_p prm)))
          (fun i nd => batched_level M (odd_p prm) (parent_scalar false es i) (os i) nd) fv evens ev 0) as (lv0 & Hlv0 & HF0) end.
      { lia. }
      { intros k nd cc Hnd Hcc. cbn [Nat.add negb]. destruct (IB k nd Hnd) as (Hln & vs & Hvs & Hq). rewrite Bool.andb_false_r. cbn [opt_bind parent_scalar]. replace (k + 1)%nat with (S k) by lia. cbn [nth_error]. rewrite (Nod k nd Hnd). cbn [opt_bind].
        assert (Hk : (k < length odds - 1)%nat) by (rewrite <- Lev; apply nth_error_Some; congruence). rewrite (Nev k vs Hk Hvs) in Hcc. apply Some_inj in Hcc. subst cc.
        destruct (src_match (even_p prm) (odd_p prm) L M nd (es k) (inr ((L * M)%nat, rerandomized_sum (even_p prm) vs (es k))) (map w_child vs)
          (fun vars => single_level_batched M (odd_p prm) (rerandomized_sum (odd_p prm) nd (os k)) vars (Some (map (fun w => vadd (w_child w) (sl_delta (odd_p prm))) nd)) (Some (os k)))
          (fun vars => single_level_batched M (odd_p prm) (rerandomized_sum (odd_p prm) nd (os k)) vars None None) Hq Hln HM) as [X1 X2];
          [right; split; [apply Zes, Hk|unfold rerandomized_sum; rewrite sum_children_psum; reflexivity]|intros vars; apply batched_level_sim|].
        rewrite X1. cbn [guard]. eexists. split; [reflexivity|]. exact X2. }
      rewrite Hlv0. cbn [opt_bind]. destruct (levels_lockstep E0 _ _ tr0 _ _ _ _ _ HF0 Hses0 H0) as (t0' & Ht0' & Hs0). rewrite Ht0'. cbn [opt_bind].
      match goal with |- context [all_some (imap ?fv 0 (psum roots :: od))] =>
        destruct (levels_pair (level_match (V := P1) (sl_pc (odd_p prm)) (sl_bp (odd_p prm)))
          (fun i nd => if (i <? length odds - 1)%nat then batched_level M (even_p prm) (parent_scalar true os i) (es i) nd
             else mkPL (concat (map w_siblings nd)) (parent_scalar true os i) (leaves_gadget M enc0 (even_p prm) sel (Some (imap (fun j w => (w_child w, ls j)) 0 nd)))) fv odds (psum roots :: od) 0) as (lv1 & Hlv1 & HF1) end.
      { cbn [length]. lia. }
      { intros k nd cc Hnd Hcc. cbn [Nat.add length]. destruct (IA k nd Hnd) as (Hln & qs & Hq & Hqs). rewrite Lod. replace (S (length evens) - 1)%nat with (length odds - 1)%nat by lia.
        assert (Hsrc : exists src, (if ((k =? 0)%nat && true)%bool then option_map inl (m_root_xs_odd M prm (TOdd ct)) else Some (inr ((L * M)%nat, cc))) = Some src /\
          ((parent_scalar true os k = 0 /\ src = inl (concat (map w_siblings nd))) \/ (parent_scalar true os k <> 0 /\ src = inr ((L * M)%nat, vadd (psum qs) (vsmul (parent_scalar true os k) (pcB_blinding (sl_pc (odd_p prm)))))))).
        { destruct k as [|k]; cbn [Nat.eqb andb nth_error parent_scalar] in *.
          - pose proof (paths_public_odd _ _ _ _ _ _ _ _ _ Hpaths Ht1 Hnd) as Xp. fold M in Xp. rewrite Xp. cbn [option_map]. eexists. split; [reflexivity|]. left. split; reflexivity.
          - eexists. split; [reflexivity|]. right. destruct Hqs as (vs & Hvs & ->). rewrite (Nod k vs Hvs) in Hcc. apply Some_inj in Hcc. subst cc. split; [apply Zos; apply nth_error_Some; congruence|].
            unfold rerandomized_sum. rewrite sum_children_psum. reflexivity. }
        destruct Hsrc as (src & Hs1 & Hs2). rewrite Hs1. cbn [opt_bind]. destruct (Nat.ltb_spec k (length odds - 1)) as [Hlt|Hge].
        - rewrite (Nev k nd Hlt Hnd). cbn [opt_bind].
          destruct (src_match (odd_p prm) (even_p prm) L M nd (parent_scalar true os k) src qs
            (fun vars => single_level_batched M (even_p prm) (rerandomized_sum (even_p prm) nd (es k)) vars (Some (map (fun w => vadd (w_child w) (sl_delta (even_p prm))) nd)) (Some (es k)))
            (fun vars => single_level_batched M (even_p prm) (rerandomized_sum (even_p prm) nd (es k)) vars None None) Hq Hln HM) as [X1 X2]; [exact Hs2|intros vars; apply batched_level_sim|].
          rewrite X1. cbn [guard]. eexists. split; [reflexivity|]. exact X2.
        - destruct (src_match (odd_p prm) (even_p prm) L M nd (parent_scalar true os k) src qs
            (leaves_gadget M enc0 (even_p prm) sel (Some (imap (fun j w => (w_child w, ls j)) 0 nd))) (leaves_gadget M enc0 (even_p prm) sel None) Hq Hln HM) as [X1 X2]; [exact Hs2|intros vars; apply leaves_gadget_sim|].
          rewrite X1. cbn [guard]. eexists. split; [reflexivity|]. exact X2. }
      rewrite Hlv1. cbn [opt_bind]. destruct (levels_lockstep E1 _ _ tr1 _ _ _ _ _ HF1 Hses1 H1) as (t1' & Ht1' & Hs1). rewrite Ht1'. cbn [opt_bind].
      exists t0', t1'. split; [reflexivity|]. split; [exact Hs0|]. split; [exact Hs1|]. split; [|reflexivity].
      rewrite Esel. rewrite (leaves_last (map snd ws) leaves m odds lastn Ht1 ltac:(lia)); [|rewrite map_length; apply Hpaths| |exact Elast].
      + unfold rerandomized. generalize 0%nat. clear. induction lastn as [|w l IH]; intros i; cbn [imap map]; [reflexivity|]. rewrite IH. reflexivity.
      + intros j o leaf Ho Hleaf. rewrite nth_error_map in Ho. destruct (nth_error ws j) as [[e o']|] eqn:Ew; [|discriminate Ho]. cbn in Ho. apply Some_inj in Ho. subst o'.
        assert (Hj : (j < length roots)%nat) by (rewrite Lr; apply nth_error_Some; congruence). destruct (nth_error roots j) as [r|] eqn:Er; [|apply nth_error_None in Er; lia].
        destruct (Hop j r e o Er) as (leaf' & Hl' & Hx); [rewrite nth_error_map, Ew; reflexivity|rewrite nth_error_map, Ew; reflexivity|]. rewrite Hleaf in Hl'. apply Some_inj in Hl'. subst leaf'.
        destruct (opens_leaf _ _ _ _ _ _ _ _ _ _ _ _ _ Hx) as [_ (w & Hw & Hc)]. destruct (opens_lengths _ _ _ _ _ _ _ _ _ _ _ _ _ Hx) as [Hlo _]. exists w. rewrite Hm, <- Hlo. auto.
  Qed.

  Lemma paths_nodes L prm t d ws leaves n m evens odds : ws <> [] -> paths_ok L prm t d ws leaves -> d <> 0%nat ->
    transpose n (map fst ws) = Some evens -> transpose m (map snd ws) = Some odds -> n = (if t_is_even t then next_length 2 d else d / 2)%nat -> m = (if t_is_even t then d / 2 else next_length 2 d)%nat ->
    t_is_even t = Nat.even d ->
    (forall i nd, nth_error evens i = Some nd -> length nd = length ws /\ exists qs, nodes_ok L (even_p prm) (odd_p prm) qs nd) /\
    (forall i nd, nth_error odds i = Some nd -> length nd = length ws /\ exists qs, nodes_ok L (odd_p prm) (even_p prm) qs nd) /\
    root_is_even evens odds = Some (t_is_even t) /\ (1 <= length odds)%nat.
  Proof.
    intros Hne Hpaths Hd Ht0 Ht1 Hn Hm Hpar. destruct (transpose_nth _ _ _ Ht0) as [Len _]. destruct (transpose_nth _ _ _ Ht1) as [Lom _].
    assert (HM : (0 < length ws)%nat) by (destruct ws; [congruence|cbn; lia]).
    assert (Hm1 : (1 <= m)%nat). { pose proof (halves d). pose proof (halves_le d). subst m. destruct (t_is_even t); [|lia]. destruct d as [|[|d]]; [congruence|discriminate Hpar|]. replace (S (S d))%nat with (d + 1 * 2)%nat by lia. rewrite Nat.div_add by lia. lia. }
    assert (Hr : root_is_even evens odds = Some (t_is_even t)).
    { unfold root_is_even. rewrite Len, Lom, Hn, Hm. pose proof (halves d) as Hh. pose proof (halves_le d). destruct (Nat.even d) eqn:Ed; rewrite Hpar.
      - apply Nat.even_spec in Ed as [k Hk]. assert (En1 : next_length 2 d = (d / 2)%nat) by (rewrite Hk, (Nat.mul_comm 2 k), Nat.div_mul in * by lia; lia). rewrite En1, Nat.eqb_refl. reflexivity.
      - rewrite <- Nat.negb_odd in Ed. apply Bool.negb_false_iff, Nat.odd_spec in Ed as [k Hk]. assert (E2 : (d / 2 = k)%nat) by (rewrite Hk, Nat.add_comm, (Nat.mul_comm 2 k), Nat.div_add by lia; reflexivity).
        destruct (Nat.eqb_spec (d / 2) (next_length 2 d)); [lia|]. replace (d / 2 + 1)%nat with (next_length 2 d) by lia. rewrite Nat.eqb_refl. reflexivity. }
    destruct t as [ct|ct]; cbn [t_is_even] in *.
    - destruct (paths_roots_even _ _ _ _ _ _ Hpaths) as (roots & Hroots & Lr & Hop).
      destruct (mopens_index L d F0 F1 P0 P1 (even_p prm) (odd_p prm) roots (map fst ws) (map snd ws) n m evens odds) as [IA IB]; try assumption.
      { intros ->. cbn in Lr. lia. } { rewrite map_length. congruence. } { rewrite map_length. congruence. }
      { intros j r e o Hj He Ho. destruct (Hop j r e o Hj He Ho) as (leaf & _ & Hl). eauto. }
      rewrite Lr in IA, IB. split; [|split; [|split; [exact Hr|lia]]].
      + intros i nd Hi. destruct (IA i nd Hi) as (H1 & qs & H2 & _). eauto.
      + intros i nd Hi. destruct (IB i nd Hi) as (H1 & vs & _ & H2). eauto.
    - destruct (paths_roots_odd _ _ _ _ _ _ Hpaths) as (roots & Hroots & Lr & Hop).
      destruct (mopens_index L d F1 F0 P1 P0 (odd_p prm) (even_p prm) roots (map snd ws) (map fst ws) m n odds evens) as [IA IB]; try assumption.
      { intros ->. cbn in Lr. lia. } { rewrite map_length. congruence. } { rewrite map_length. congruence. }
      { intros j r e o Hj He Ho. destruct (Hop j r o e Hj Ho He) as (leaf & _ & Hl). eauto. }
      rewrite Lr in IA, IB. split; [|split; [|split; [exact Hr|lia]]].
      + intros i nd Hi. destruct (IB i nd Hi) as (H1 & vs & _ & H2). eauto.
      + intros i nd Hi. destruct (IA i nd Hi) as (H1 & qs & H2 & _). eauto.
  Qed.
  Lemma msr_total L prm t d ws leaves n m evens odds os es ls s0 s1 : (0 < L)%nat ->
    sl_good (even_p prm) -> sl_good (odd_p prm) -> sw_a P0 = 0 -> sw_a P1 = 0 -> ws <> [] -> paths_ok L prm t d ws leaves -> d <> 0%nat ->
    transpose n (map fst ws) = Some evens -> transpose m (map snd ws) = Some odds -> n = (if t_is_even t then next_length 2 d else d / 2)%nat -> m = (if t_is_even t then d / 2 else next_length 2 d)%nat ->
    t_is_even t = Nat.even d ->
    (forall i nd, nth_error evens i = Some nd -> badmissible (odd_p prm) (map w_child nd) (os i)) ->
    (forall i nd, nth_error (removelast odds) i = Some nd -> badmissible (even_p prm) (map w_child nd) (es i)) ->
    (forall j w, nth_error (last odds []) j = Some w -> admissible (even_p prm) (w_child w) (ls j)) ->
    honest s0 -> honest s1 ->
    exists s0' s1' p rs, msr_prove E0 E1 enc0 (length ws) (sl_pc (even_p prm)) (sl_pc (odd_p prm)) prm evens odds os es ls s0 s1 = Some (s0', s1', (p, rs)) /\
      honest s0' /\ honest s1' /\ keeps s0 s0' /\ keeps s1 s1' /\ p_def s0' = p_def s0 /\ p_def s1' = p_def s1.
  Proof.
    intros HL Hg0 Hg1 Ha0 Ha1 Hne Hpaths Hd Ht0 Ht1 Hn Hm Hpar Aos Aes Als Hh0 Hh1. destruct (paths_nodes _ _ _ _ _ _ _ _ _ _ Hne Hpaths Hd Ht0 Ht1 Hn Hm Hpar) as (IA & IB & Hr & Hlo).
    unfold msr_prove. rewrite Hr. cbn [opt_bind]. set (top := t_is_even t). set (M := length ws) in *. assert (HM : (0 < M)%nat) by (unfold M; destruct ws; [congruence|cbn; lia]).
    destruct (nth_error odds (length odds - 1)) as [lastn|] eqn:Elast; [|apply nth_error_None in Elast; lia]. rewrite (last_nth odds [] lastn Elast) in Als.
    assert (Esel : mp_selected (fst (make_mpath M prm evens odds os es ls)) = imap (fun i w => rerandomized (even_p prm) w (ls i)) 0 lastn).
    { unfold make_mpath. cbn [fst mp_selected]. rewrite (last_nth odds [] lastn Elast). destruct odds; [cbn in Hlo; lia|reflexivity]. }
    rewrite Esel.
    destruct (levels_total (n := 0) E0 (sl_pc (even_p prm)) (sl_bp (even_p prm)) (m_even_levels M prm top evens os es) s0) as (s0' & R0 & Hh0' & Hk0); [|exact Hh0|].
    { apply imap_Forall. intros k nd Hnd. cbn [Nat.add]. destruct (IA k nd Hnd) as (Hln & qs & Hq). rewrite <- Hln. apply (batched_level_ok E0 (even_p prm) (odd_p prm) L qs nd); [exact Hg1|exact Ha1|exact HL|intros ->; cbn in Hln; lia|exact Hq|apply Aos; exact Hnd]. }
    destruct (levels_total (n := 0) E1 (sl_pc (odd_p prm)) (sl_bp (odd_p prm)) (m_odd_levels enc0 M prm (negb top) odds (imap (fun i w => rerandomized (even_p prm) w (ls i)) 0 lastn) os es ls) s1) as (s1' & R1 & Hh1' & Hk1); [|exact Hh1|].
    { apply imap_Forall. intros k nd Hnd. cbn [Nat.add]. destruct (IB k nd Hnd) as (Hln & qs & Hq). assert (Hnn : nd <> []) by (intros ->; cbn in Hln; lia). destruct (Nat.ltb_spec k (length odds - 1)) as [Hlt|Hge].
      - rewrite <- Hln. apply (batched_level_ok E1 (odd_p prm) (even_p prm) L qs nd); [exact Hg0|exact Ha0|exact HL|exact Hnn|exact Hq|]. apply Aes. rewrite removelast_nth. destruct (Nat.ltb_spec k (length odds - 1)); [exact Hnd|lia].
      - assert (Hk : (k < length odds)%nat) by (apply nth_error_Some; congruence). replace k with (length odds - 1)%nat in Hnd by lia. rewrite Elast in Hnd. apply Some_inj in Hnd. subst nd. rewrite <- Hln. apply (leaves_level_ok E1 (odd_p prm) (even_p prm) enc0 L qs lastn); assumption. }
    rewrite R0, R1. cbn [opt_bind]. eexists s0', s1', _, _. split; [reflexivity|]. split; [exact Hh0'|]. split; [exact Hh1'|]. split; [exact Hk0|]. split; [exact Hk1|]. split.
    - eapply levels_def; [|exact R0]. apply imap_Forall. intros k nd _. unfold batched_level. cbn [Nat.add pl_gadget]. eexists (fun vars => single_level_batched M (odd_p prm) _ vars None None). intros vars. apply batched_level_sim.
    - eapply levels_def; [|exact R1]. apply imap_Forall. intros k nd _. cbn [Nat.add]. destruct (k <? length odds - 1)%nat; unfold batched_level; cbn [pl_gadget].
      + eexists (fun vars => single_level_batched M (even_p prm) _ vars None None). intros vars. apply batched_level_sim.
      + eexists. intros vars. apply leaves_gadget_sim.
  Qed.
End MPathRun.
