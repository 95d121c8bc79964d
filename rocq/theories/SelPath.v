(** * Whole paths: lemmas *)
From Verif Require Export SelSim TreeProofs PropsSingle PropsTree.
From Verif Require Import CSProofs UtilProofs Lockstep CSMore.
Local Open Scope F_scope.

(** ** Lists *)
Lemma imap_length {A B} (f : nat -> A -> B) : forall l i, length (imap f i l) = length l.
Proof. induction l as [|x l IH]; intros i; cbn [imap length]; [reflexivity|]. rewrite IH. reflexivity. Qed.
Lemma imap_nth {A B} (f : nat -> A -> B) : forall l i k, nth_error (imap f i l) k = option_map (f (i + k)%nat) (nth_error l k).
Proof.
  induction l as [|x l IH]; intros i k; cbn [imap]; [destruct k; reflexivity|]. destruct k as [|k]; cbn [nth_error]; [rewrite Nat.add_0_r; reflexivity|].
  rewrite IH. do 2 f_equal. lia.
Qed.
Lemma imap_Forall {A B} (f : nat -> A -> B) (P : B -> Prop) : forall l i, (forall k x, nth_error l k = Some x -> P (f (i + k)%nat x)) -> Forall P (imap f i l).
Proof.
  induction l as [|x l IH]; intros i H; cbn [imap]; constructor; [specialize (H 0%nat x eq_refl); rewrite Nat.add_0_r in H; exact H|]. apply IH. intros k y Hk. specialize (H (S k) y Hk).
  replace (i + S k)%nat with (S i + k)%nat in H by lia. exact H.
Qed.
Lemma levels_pair {A B X Y} (R : X -> Y -> Prop) (fp : nat -> A -> X) (fv : nat -> B -> option Y) : forall la lb i, length la = length lb ->
  (forall k a b, nth_error la k = Some a -> nth_error lb k = Some b -> exists y, fv (i + k)%nat b = Some y /\ R (fp (i + k)%nat a) y) ->
  exists ys, all_some (imap fv i lb) = Some ys /\ Forall2 R (imap fp i la) ys.
Proof.
  induction la as [|a la IH]; intros [|b lb] i Hl H; try discriminate Hl; cbn [imap all_some].
  - exists []. split; [reflexivity|constructor].
  - destruct (H 0%nat a b eq_refl eq_refl) as (y & Hy & HR). rewrite Nat.add_0_r in Hy, HR. rewrite Hy. cbn [opt_bind].
    destruct (IH lb (S i)) as (ys & Hys & HF); [cbn [length] in Hl; lia| |].
    + intros k a' b' Ha Hb. specialize (H (S k) a' b' Ha Hb). replace (S i + k)%nat with (i + S k)%nat by lia. exact H.
    + rewrite Hys. cbn [opt_bind]. exists (y :: ys). split; [reflexivity|]. constructor; assumption.
Qed.
Lemma removelast_nth {A} : forall (l : list A) k, nth_error (removelast l) k = if (k <? length l - 1)%nat then nth_error l k else None.
Proof.
  intros l k. rewrite removelast_firstn_len, nth_error_firstn. replace (Nat.pred (length l)) with (length l - 1)%nat by lia. reflexivity.
Qed.
Lemma removelast_len {A} (l : list A) : length (removelast l) = (length l - 1)%nat.
Proof. rewrite removelast_firstn_len, firstn_length. lia. Qed.
Lemma last_nth {A} (l : list A) d x : nth_error l (length l - 1) = Some x -> last l d = x.
Proof.
  induction l as [|a l IH]; intros H; [discriminate H|]. destruct l as [|b l]; [cbn in H |- *; congruence|]. cbn [last]. apply IH. cbn [length] in *.
  replace (S (S (length l)) - 1)%nat with (S (S (length l) - 1)) in H by lia. exact H.
Qed.

(** ** Nodes of an opened path *)
Definition node_ok {F0 F1 : PField} {P0 : SWCurve F1 F0} {P1 : SWCurve F0 F1} (L ti : nat) (prm0 : SLParams P0) (prm1 : SLParams P1) (parent : P0) (w : Wit F0 P1) : Prop :=
  length (w_siblings w) = L /\ plain_commitment prm0 ti (w_siblings w) parent /\
  In (match coords (vadd (w_child w) (sl_delta prm1)) with Some xy => fst xy | None => 0 end) (w_siblings w).
Lemma opens_index L ti : forall d (F0 F1 : PField) (P0 : SWCurve F1 F0) (P1 : SWCurve F0 F1) (prm0 : SLParams P0) (prm1 : SLParams P1) parent evens odds leaf,
  opens L ti d prm0 prm1 parent evens odds leaf ->
  (forall i w, nth_error evens i = Some w -> exists q, match i with O => q = parent | S j => exists v, nth_error odds j = Some v /\ q = w_child v end /\ node_ok L ti prm0 prm1 q w) /\
  (forall i w, nth_error odds i = Some w -> exists v, nth_error evens i = Some v /\ node_ok L ti prm1 prm0 (w_child v) w).
Proof.
  induction d as [|d IH]; intros F0 F1 P0 P1 prm0 prm1 parent evens odds leaf H; cbn [opens] in H.
  - destruct H as (-> & -> & _). split; intros [|i] w Hw; discriminate Hw.
  - destruct H as (w0 & evens' & -> & H1 & H2 & H3 & H). apply IH in H as [HA HB]. split.
    + intros [|i] w Hw; cbn [nth_error] in Hw.
      * apply Some_inj in Hw. subst w0. exists parent. split; [reflexivity|]. repeat split; assumption.
      * destruct (HB i w Hw) as (v & Hv & Hn). exists (w_child v). eauto.
    + intros i w Hw. destruct (HA i w Hw) as (q & Hq & Hn). destruct i as [|i].
      * subst q. exists w0. auto.
      * destruct Hq as (v & Hv & ->). exists v. auto.
Qed.
(** the leaf is the child of the last node *)
Lemma opens_leaf L ti : forall d (F0 F1 : PField) (P0 : SWCurve F1 F0) (P1 : SWCurve F0 F1) (prm0 : SLParams P0) (prm1 : SLParams P1) parent evens odds leaf,
  opens L ti d prm0 prm1 parent evens odds leaf ->
  match leaf with
  | inl c => length evens = length odds /\ (d = 0%nat \/ exists w, nth_error odds (length odds - 1) = Some w /\ c = w_child w)
  | inr c => length evens = S (length odds) /\ exists w, nth_error evens (length evens - 1) = Some w /\ c = w_child w
  end.
Proof.
  induction d as [|d IH]; intros F0 F1 P0 P1 prm0 prm1 parent evens odds leaf H; cbn [opens] in H.
  - destruct H as (-> & -> & ->). auto.
  - destruct H as (w0 & evens' & -> & _ & _ & _ & H). pose proof H as H'. apply IH in H. destruct leaf as [c|c]; cbn [swap_sum] in *.
    + destruct H as [E (w & Hw & ->)]. cbn [length]. split; [lia|]. right. exists w. auto.
    + destruct H as [E [->|(w & Hw & ->)]].
      * cbn [opens] in H'. destruct H' as (-> & -> & Hc). injection Hc as ->. cbn. split; [reflexivity|]. exists w0. auto.
      * cbn [length]. split; [lia|]. exists w. split; [|reflexivity]. destruct evens' as [|e evens']; [discriminate Hw|]. cbn [length] in *. replace (S (S (length evens')) - 1)%nat with (S (S (length evens') - 1)) by lia. exact Hw.
Qed.

(** ** Levels of a single path *)
Section Match.
  Context {F0 F1 : PField} {P0 : SWCurve F1 F0} {P1 : SWCurve F0 F1}.
  Add Field FFsel0 : (f_th F0).
  Add Field FFsel1 : (f_th F1).
  Lemma plain_vec (prm : SLParams P0) xs c r : plain_commitment prm 0 xs c -> vadd c (vsmul r (pcB_blinding (sl_pc prm))) = vec_commitment (sl_pc prm) (sl_bp prm) r xs.
  Proof.
    intros (G & HG & Hl & ->). unfold vec_commitment, slice. cbn [Nat.mul skipn]. rewrite (nth_error_nth _ _ _ HG), msm_firstn_r by lia. apply vadd_comm.
  Qed.
  Lemma single_match enc (prm0 : SLParams P0) (prm1 : SLParams P1) (w : Wit F0 P1) pr cr src ch :
    ch = rerandomized prm1 w cr ->
    (pr = 0 /\ src = inl (w_siblings w)) \/ (pr <> 0 /\ exists q, plain_commitment prm0 0 (w_siblings w) q /\ src = inr (length (w_siblings w), vadd q (vsmul pr (pcB_blinding (sl_pc prm0))))) ->
    level_match (V := P0) (sl_pc prm0) (sl_bp prm0)
      (mkPL (w_siblings w) pr (fun vars => single_level enc prm1 (rerandomized prm1 w cr) vars (Some (vadd (w_child w) (sl_delta prm1))) (Some cr)))
      (mkVL src (fun vars => single_level enc prm1 ch vars None None)).
  Proof.
    intros -> Hsrc. constructor; cbn [pl_xs pl_r pl_gadget vl_src vl_gadget]; [|intros vars; apply single_level_sim].
    destruct Hsrc as [[-> ->]|[Hne (q & Hq & ->)]].
    - replace (feqb (0 : F0) 0) with true by (symmetry; apply feqb_true; reflexivity). reflexivity.
    - replace (feqb pr 0) with false by (symmetry; apply feqb_false; exact Hne). rewrite (plain_vec prm0 _ _ pr Hq). reflexivity.
  Qed.
  (** a level the prover got through has an admissible scalar *)
  Lemma single_levels_scalars (E0 : TrEnv P0) pc g enc (prm1 : SLParams P1) top nodes ps cs s s' : sl_good prm1 ->
    prove_levels E0 pc g s (single_levels enc prm1 top nodes ps cs) = Some s' -> forall i, (i < length nodes)%nat -> cs i <> 0.
  Proof.
    intros Hg H i Hi. apply levels_each in H. rewrite Forall_forall in H. destruct (nth_error nodes i) as [w|] eqn:Hw; [|apply nth_error_None in Hw; lia].
    assert (Hin : nth_error (single_levels enc prm1 top nodes ps cs) i <> None) by (unfold single_levels; rewrite imap_nth, Hw; discriminate).
    destruct (nth_error (single_levels enc prm1 top nodes ps cs) i) as [p|] eqn:Hp; [|congruence]. pose proof (nth_error_In _ _ Hp) as Hin'. specialize (H p Hin').
    unfold single_levels in Hp. rewrite imap_nth, Hw in Hp. cbn [option_map Nat.add] in Hp. apply Some_inj in Hp. subst p. cbn [pl_gadget pl_xs] in H.
    destruct H as (s1 & s2 & vars & _ & R). intros Hz.
    assert (Hf : pret E0 (single_level enc prm1 (rerandomized prm1 w (cs i)) vars (Some (vadd (w_child w) (sl_delta prm1))) (Some (cs i))) (fun _ => ~ exceptional (cs i))).
    { unfold single_level. eapply pret_bind; [apply (single_finishes E0 false v0 enc prm1 _ vars _ (cs i) Hg)|]. intros a (_ & _ & _ & H4) s3 s4 b _ (k & Hk & Hcol).
      pose proof (proj2 (proj2 Hg)) as Hgt. pose proof (good_h _ _ Hgt) as Hh.
      destruct (H4 k ltac:(lia)) as [N1 N2]. rewrite acc_pt_0 in N1, N2. unfold win_pt in *. rewrite fZ_smul_opp in N2. destruct Hcol as [Hc|Hc].
      - apply N1. apply fZ_smul_eq; [exact Hh|exact Hc].
      - apply N2. apply fZ_smul_eq; [exact Hh|]. rewrite <- Hc. f_equal. lia. }
    apply (Hf _ _ _ R). rewrite Hz. apply zero_exceptional. eapply good_windows. exact (proj2 (proj2 Hg)).
  Qed.
  (** an honest level *)
  Lemma single_level_ok (E0 : TrEnv P0) (prm0 : SLParams P0) (prm1 : SLParams P1) enc L ti q (w : Wit F0 P1) pr cr : sl_good prm1 -> sw_a P1 = 0 ->
    node_ok L ti prm0 prm1 q w -> ~ exceptional cr -> let P := vadd (w_child w) (sl_delta prm1) in let h := pcB_blinding (sl_pc prm1) in
    P <> v0 -> vsmul cr h <> P -> vsmul cr h <> vopp P ->
    level_ok E0 (sl_bp prm0) (mkPL (w_siblings w) pr (fun vars => single_level enc prm1 (rerandomized prm1 w cr) vars (Some P) (Some cr))).
  Proof.
    intros Hg H0 (HL & (G & HG & HlG & _) & Hin) Hex P h HP Hne Hno. split; [intros EG; rewrite EG in HG; discriminate HG|]. split; cbn [pl_xs pl_gadget].
    - rewrite (nth_error_nth _ _ _ HG). nia.
    - intros n s vars Hh Hok Hvals. destruct (coords_some _ HP) as (x & y & Hxy). fold P in Hin. rewrite Hxy in Hin. cbn [fst] in Hin. rewrite <- Hvals in Hin. apply in_map_iff in Hin as (c & Hc & Hin).
      pose proof (proj2 (proj2 Hg)) as Hgt. assert (Hsm : smooth h (windows (S:=F1)) v0 (digits_of cr)) by (eapply smooth_iff; eassumption).
      destruct (prover_complete E0 (single_level enc prm1 (rerandomized prm1 w cr) vars (Some P) (Some cr)) (fun _ _ _ => True) s Hh) as (s' & [] & R1 & R2 & R3 & _).
      + intros ww Hw. unfold single_level. apply wpc_bind. eapply (single_complete ww (agrees_one ww s Hw) false v0); rewrite ?vadd_0_l; try eassumption.
        * discriminate.
        * exists x, y, c. split; [exact Hxy|]. split; [exact Hin|]. rewrite (agrees_val ww s) by (try exact Hw; rewrite Forall_forall in Hok; apply Hok, Hin). exact Hc.
        * unfold P, rerandomized. vring.
        * apply issued_one.
        * intros; exact I.
      + eauto.
  Qed.
End Match.

(** ** The prover's path and the verifier's levels *)
Section PathRun.
  Context {F0 F1 : PField} {P0 : SWCurve F1 F0} {P1 : SWCurve F0 F1}.
  Variables (E0 : TrEnv P0) (E1 : TrEnv P1) (enc0 : P0 -> bytes) (enc1 : P1 -> bytes).
  Implicit Types (prm : SRParams P0 P1) (t : CurveTree P0 P1).

  (** The first node of the path lists the children of the root. *)
  Definition root_public prm t (ti : nat) (evens : list (Wit F0 P1)) (odds : list (Wit F1 P0)) : Prop :=
    match t with
    | TEven _ => exists w, nth_error evens 0 = Some w /\ root_xs_even prm t ti = Some (w_siblings w)
    | TOdd _ => exists w, nth_error odds 0 = Some w /\ root_xs_odd prm t ti = Some (w_siblings w)
    end.
  Lemma at_child_some {A B X} (f : Node A B -> option X) (cs : list (option (Node A B))) k x : at_child f cs k = Some x -> exists c, f c = Some x.
  Proof.
    revert k. induction cs as [|o cs IH]; intros [|k] H; cbn in H; try discriminate H.
    - destruct o as [c|]; [eauto|discriminate H].
    - eapply IH; eassumption.
  Qed.
  Lemma tree_witness_root oc L t i ti prm evens odds : tree_witness oc L t i ti prm = Some (evens, odds) -> t_height t <> 0%nat -> root_public prm t ti evens odds.
  Proof.
    unfold tree_witness. intros H Hh. destruct t as [[comms cs h e|c]|[comms cs h e|c]]; try (cbn in Hh; congruence).
    - cbn [node_witness] in H. destruct (child_index oc L h i) as [k|]; [|discriminate H]. cbn [opt_bind] in H.
      destruct (at_child _ cs k) as [[ev od]|] eqn:Ha; [|discriminate H]. cbn [opt_bind] in H. unfold guard in H. destruct (_ =? _)%nat; [|discriminate H]. apply Some_inj, pair_inj in H as [-> ->].
      apply at_child_some in Ha as (c & Hc). destruct (x_coordinates cs (sl_delta (odd_p prm)) ti) as [sib|] eqn:Hs; [|discriminate Hc]. cbn [opt_bind] in Hc.
      destruct (n_commitment c ti) as [P|]; [|discriminate Hc]. cbn [opt_bind] in Hc. destruct (node_witness oc L c i ti _ _) as [[o' e']|]; [|discriminate Hc]. cbn [opt_bind] in Hc. apply Some_inj, pair_inj in Hc as [<- <-].
      cbn [root_public root_xs_even]. eexists. split; [reflexivity|]. exact Hs.
    - cbn [node_witness] in H. destruct (child_index oc L h i) as [k|]; [|discriminate H]. cbn [opt_bind] in H.
      destruct (at_child _ cs k) as [[ev od]|] eqn:Ha; [|discriminate H]. cbn [opt_bind fst snd] in H. unfold guard in H. destruct (_ =? _)%nat; [|discriminate H]. apply Some_inj, pair_inj in H as [-> ->].
      apply at_child_some in Ha as (c & Hc). destruct (x_coordinates cs (sl_delta (even_p prm)) ti) as [sib|] eqn:Hs; [|discriminate Hc]. cbn [opt_bind] in Hc.
      destruct (n_commitment c ti) as [P|]; [|discriminate Hc]. cbn [opt_bind] in Hc. destruct (node_witness oc L c i ti _ _) as [[o' e']|]; [|discriminate Hc]. cbn [opt_bind] in Hc. apply Some_inj, pair_inj in Hc as [<- <-].
      cbn [root_public root_xs_odd]. eexists. split; [reflexivity|]. exact Hs.
  Qed.

  Lemma sr_lockstep_R R0 R1 dbg L prm t root d evens odds leaf os es s0 s1 (t0 : VState P0) (t1 : VState P1) s0' s1' p r :
    locked E0 (sl_pc (even_p prm)) (sl_bp (even_p prm)) R0 -> locked E1 (sl_pc (odd_p prm)) (sl_bp (odd_p prm)) R1 ->
    sl_good (even_p prm) -> sl_good (odd_p prm) -> t_commitment t 0 = Some root -> t_opens L 0 d prm root evens odds leaf -> d <> 0%nat -> root_public prm t 0 evens odds ->
    (dbg = true -> t_height t = d) ->
    R0 s0 t0 -> R1 s1 t1 ->
    sr_prove E0 E1 enc0 enc1 (sl_pc (even_p prm)) (sl_pc (odd_p prm)) prm evens odds os es s0 s1 = Some (s0', s1', (p, r)) ->
    exists (t0' : VState P0) (t1' : VState P1), sr_verify E0 E1 enc0 enc1 dbg L prm t p t0 t1 = Some (t0', t1', pa_selected p) /\
      R0 s0' t0' /\ R1 s1' t1' /\
      pa_selected p = vadd leaf (vsmul r (pcB_blinding (sl_pc (even_p prm)))).
  Proof.
    intros HR0 HR1 Hg0 Hg1 Hroot Ho Hd Hpub Hdbg Hses0 Hses1 Hprove. unfold sr_prove in Hprove.
    destruct (root_is_even evens odds) as [top|] eqn:Etop; [|discriminate Hprove]. cbn [opt_bind] in Hprove.
    destruct (prove_levels E0 _ _ s0 _) as [s0''|] eqn:H0; [|discriminate Hprove]. cbn [opt_bind] in Hprove.
    destruct (prove_levels E1 _ _ s1 _) as [s1''|] eqn:H1; [|discriminate Hprove]. cbn [opt_bind] in Hprove.
    apply Some_inj in Hprove. unfold make_path in Hprove. apply pair_inj in Hprove as [Hss Hprove]. apply pair_inj in Hss as [-> ->]. apply pair_inj in Hprove as [<- <-].
    set (ev := imap (fun i w => rerandomized (even_p prm) w (es i)) 0 odds) in *. set (od := imap (fun i w => rerandomized (odd_p prm) w (os i)) 0 evens) in *.
    assert (Lev : length ev = length odds) by apply imap_length. assert (Lod : length od = length evens) by apply imap_length.
    assert (Nev : forall i w, nth_error odds i = Some w -> nth_error ev i = Some (rerandomized (even_p prm) w (es i))) by (intros i w Hw; unfold ev; rewrite imap_nth, Hw; reflexivity).
    assert (Nod : forall i w, nth_error evens i = Some w -> nth_error od i = Some (rerandomized (odd_p prm) w (os i))) by (intros i w Hw; unfold od; rewrite imap_nth, Hw; reflexivity).
    pose proof (single_levels_scalars E0 _ _ _ _ _ _ _ _ _ _ Hg1 H0) as Zos. pose proof (single_levels_scalars E1 _ _ _ _ _ _ _ _ _ _ Hg0 H1) as Zes.
    destruct t as [ct|ct]; cbn [t_commitment] in Hroot.
    - destruct (n_commitment ct 0) as [c|] eqn:Ec; [|discriminate Hroot]. apply Some_inj in Hroot. subst root. cbn [t_opens] in Ho.
      destruct (opens_leaf _ _ _ _ _ _ _ _ _ _ _ _ _ Ho) as [Hlen [Hz|(wl & Hwl & ->)]]; [contradiction|].
      destruct (opens_lengths _ _ _ _ _ _ _ _ _ _ _ _ _ Ho) as [Hl1 Hl2]. destruct (opens_index _ _ _ _ _ _ _ _ _ _ _ _ _ Ho) as [IA IB].
      assert (Hn : (1 <= length odds)%nat) by (destruct odds; [discriminate Hwl|cbn; lia]).
      unfold root_is_even in Etop. rewrite Hlen, Nat.eqb_refl in Etop. apply Some_inj in Etop. subst top. cbn [negb] in H1.
      destruct Hpub as (w0 & Hw0 & Hx0).
      unfold sr_verify, verification_commitments. cbn [pa_even pa_odd pa_selected]. rewrite removelast_len, Lev, Lod, Hlen.
      replace (length odds - 1 + 1)%nat with (length odds) by lia. rewrite Nat.eqb_refl. cbn [guard]. rewrite Ec. cbn [opt_bind pa_even pa_odd pa_selected length].
      rewrite removelast_len, Lev, Lod, Hlen. replace (S (length odds - 1) + length odds)%nat with d by (pose proof (halves d); lia).
      assert (Edbg : (dbg && negb (t_height (TEven ct) =? d)%nat)%bool = false). { destruct dbg; [|reflexivity]. rewrite (Hdbg eq_refl), Nat.eqb_refl. reflexivity. }
      rewrite Edbg. unfold even_gadget, odd_gadget, root_is_odd. cbn [pa_even pa_odd pa_selected length]. rewrite removelast_len, Lev, Lod, Hlen.
      destruct (Nat.eqb_spec (S (length odds - 1) + 1) (length odds)) as [Hx|_]; [lia|]. replace (S (length odds - 1)) with (length odds) by lia. rewrite Nat.eqb_refl. cbn [guard opt_bind].
      unfold even_levels, odd_levels. cbn [pa_even pa_odd pa_selected].
      match goal with |- context [all_some (imap ?fv 0 (c :: removelast ev))] =>
        destruct (levels_pair (level_match (V := P0) (sl_pc (even_p prm)) (sl_bp (even_p prm)))
          (fun i w => mkPL (w_siblings w) (parent_scalar true es i) (fun vars => single_level enc1 (odd_p prm) (rerandomized (odd_p prm) w (os i)) vars (Some (vadd (w_child w) (sl_delta (odd_p prm)))) (Some (os i)))) fv evens (c :: removelast ev) 0) as (lv0 & Hlv0 & HF0) end.
      { cbn [length]. rewrite removelast_len, Lev. lia. }
      { intros k w cc Hw Hcc. cbn [Nat.add negb]. destruct (IA k w Hw) as (q & Hq & HL & Hpl & _). rewrite (Nod k w Hw). destruct k as [|k]; cbn [Nat.eqb andb nth_error].
        - rewrite Hx0. cbn [option_map opt_bind]. eexists. split; [reflexivity|]. apply single_match; [reflexivity|]. left. split; [reflexivity|]. congruence.
        - cbn [opt_bind]. eexists. split; [reflexivity|]. apply single_match; [reflexivity|]. right. destruct Hq as (v & Hv & ->). cbn [nth_error] in Hcc. rewrite removelast_nth, (Nev k v Hv) in Hcc.
          destruct (_ <? _)%nat; [|discriminate Hcc]. apply Some_inj in Hcc. split; [apply Zes, nth_error_Some; rewrite Hv; discriminate|]. exists (w_child v). split; [exact Hpl|]. rewrite HL, <- Hcc. reflexivity. }
      rewrite Hlv0. cbn [opt_bind]. destruct (levels_lockstep_R E0 _ _ R0 HR0 _ _ _ _ _ HF0 Hses0 H0) as (t0' & Ht0 & Hs0). rewrite Ht0. cbn [opt_bind].
      match goal with |- context [all_some (imap ?fv 0 od)] =>
        destruct (levels_pair (level_match (V := P1) (sl_pc (odd_p prm)) (sl_bp (odd_p prm)))
          (fun i w => mkPL (w_siblings w) (parent_scalar false os i) (fun vars => single_level enc0 (even_p prm) (rerandomized (even_p prm) w (es i)) vars (Some (vadd (w_child w) (sl_delta (even_p prm)))) (Some (es i)))) fv odds od 0) as (lv1 & Hlv1 & HF1) end.
      { lia. }
      { intros k w cc Hw Hcc. cbn [Nat.add]. destruct (IB k w Hw) as (v & Hv & HL & Hpl & _). rewrite (Nod k v Hv) in Hcc. apply Some_inj in Hcc. rewrite Lod, Hlen.
        assert (Hk : (k < length odds)%nat) by (apply nth_error_Some; rewrite Hw; discriminate).
        assert (Ech : (if (k <? length odds - 1)%nat then nth_error (c :: removelast ev) (k + 1) else Some (last ev v0)) = Some (rerandomized (even_p prm) w (es k))).
        { destruct (Nat.ltb_spec k (length odds - 1)) as [Hlt|Hge].
          - replace (k + 1)%nat with (S k) by lia. cbn [nth_error]. rewrite removelast_nth, Lev. destruct (Nat.ltb_spec k (length odds - 1)); [|lia]. apply Nev, Hw.
          - f_equal. apply last_nth. rewrite Lev. replace (length odds - 1)%nat with k by lia. apply Nev, Hw. }
        rewrite Ech. cbn [opt_bind]. rewrite Bool.andb_false_r. cbn [opt_bind]. eexists. split; [reflexivity|]. apply single_match; [reflexivity|]. right. cbn [parent_scalar].
        split; [apply Zos; lia|]. exists (w_child v). split; [exact Hpl|]. rewrite HL, <- Hcc. reflexivity. }
      rewrite Hlv1. cbn [opt_bind]. destruct (levels_lockstep_R E1 _ _ R1 HR1 _ _ _ _ _ HF1 Hses1 H1) as (t1' & Ht1 & Hs1). rewrite Ht1. cbn [opt_bind].
      exists t0', t1'. split; [reflexivity|]. split; [exact Hs0|]. split; [exact Hs1|].
      rewrite (last_nth ev v0 (rerandomized (even_p prm) wl (es (length odds - 1)%nat))) by (rewrite Lev; apply Nev; exact Hwl). destruct odds; [discriminate Hwl|]. reflexivity.
    - destruct (n_commitment ct 0) as [c|] eqn:Ec; [|discriminate Hroot]. apply Some_inj in Hroot. subst root. cbn [t_opens] in Ho.
      destruct (opens_leaf _ _ _ _ _ _ _ _ _ _ _ _ _ Ho) as [Hlen (wl & Hwl & ->)].
      destruct (opens_lengths _ _ _ _ _ _ _ _ _ _ _ _ _ Ho) as [Hl1 Hl2]. destruct (opens_index _ _ _ _ _ _ _ _ _ _ _ _ _ Ho) as [IA IB].
      unfold root_is_even in Etop. destruct (Nat.eqb_spec (length evens) (length odds)) as [Hx|_]; [lia|]. rewrite Nat.add_comm in Etop. cbn [Nat.add] in Etop. rewrite Hlen, Nat.eqb_refl in Etop. apply Some_inj in Etop. subst top. cbn [negb] in H1.
      destruct Hpub as (w0 & Hw0 & Hx0).
      unfold sr_verify, verification_commitments. cbn [pa_even pa_odd pa_selected]. rewrite removelast_len, Lev, Lod, Hlen.
      replace (S (length evens) - 1)%nat with (length evens) by lia. rewrite Nat.eqb_refl. cbn [guard]. rewrite Ec. cbn [opt_bind pa_even pa_odd pa_selected length].
      rewrite removelast_len, Lev, Lod, Hlen. replace (S (length evens) - 1 + S (length evens))%nat with d by (pose proof (halves d); lia).
      assert (Edbg : (dbg && negb (t_height (TOdd ct) =? d)%nat)%bool = false). { destruct dbg; [|reflexivity]. rewrite (Hdbg eq_refl), Nat.eqb_refl. reflexivity. }
      rewrite Edbg. unfold even_gadget, odd_gadget, root_is_odd. cbn [pa_even pa_odd pa_selected length]. rewrite removelast_len, Lev, Lod, Hlen.
      replace (S (length evens) - 1 + 1)%nat with (S (length evens)) by lia. rewrite Nat.eqb_refl. cbn [guard opt_bind].
      unfold even_levels, odd_levels. cbn [pa_even pa_odd pa_selected].
      match goal with |- context [all_some (imap ?fv 0 (removelast ev))] =>
        destruct (levels_pair (level_match (V := P0) (sl_pc (even_p prm)) (sl_bp (even_p prm)))
          (fun i w => mkPL (w_siblings w) (parent_scalar false es i) (fun vars => single_level enc1 (odd_p prm) (rerandomized (odd_p prm) w (os i)) vars (Some (vadd (w_child w) (sl_delta (odd_p prm)))) (Some (os i)))) fv evens (removelast ev) 0) as (lv0 & Hlv0 & HF0) end.
      { rewrite removelast_len, Lev. lia. }
      { intros k w cc Hw Hcc. cbn [Nat.add negb]. destruct (IB k w Hw) as (v & Hv & HL & Hpl & _). rewrite Bool.andb_false_r. cbn [opt_bind]. replace (k + 1)%nat with (S k) by lia. cbn [nth_error]. rewrite (Nod k w Hw). cbn [opt_bind].
        eexists. split; [reflexivity|]. apply single_match; [reflexivity|]. right. rewrite removelast_nth, (Nev k v Hv) in Hcc.
        destruct (_ <? _)%nat; [|discriminate Hcc]. apply Some_inj in Hcc. cbn [parent_scalar]. split; [apply Zes, nth_error_Some; rewrite Hv; discriminate|]. exists (w_child v). split; [exact Hpl|]. rewrite HL, <- Hcc. reflexivity. }
      rewrite Hlv0. cbn [opt_bind]. destruct (levels_lockstep_R E0 _ _ R0 HR0 _ _ _ _ _ HF0 Hses0 H0) as (t0' & Ht0 & Hs0). rewrite Ht0. cbn [opt_bind].
      match goal with |- context [all_some (imap ?fv 0 (c :: od))] =>
        destruct (levels_pair (level_match (V := P1) (sl_pc (odd_p prm)) (sl_bp (odd_p prm)))
          (fun i w => mkPL (w_siblings w) (parent_scalar true os i) (fun vars => single_level enc0 (even_p prm) (rerandomized (even_p prm) w (es i)) vars (Some (vadd (w_child w) (sl_delta (even_p prm)))) (Some (es i)))) fv odds (c :: od) 0) as (lv1 & Hlv1 & HF1) end.
      { cbn [length]. lia. }
      { intros k w cc Hw Hcc. cbn [Nat.add length]. destruct (IA k w Hw) as (q & Hq & HL & Hpl & _). rewrite Lod.
        assert (Hk : (k < length odds)%nat) by (apply nth_error_Some; rewrite Hw; discriminate).
        assert (Ech : (if (k <? S (length evens) - 1)%nat then nth_error (removelast ev) k else Some (last ev v0)) = Some (rerandomized (even_p prm) w (es k))).
        { destruct (Nat.ltb_spec k (S (length evens) - 1)) as [Hlt|Hge].
          - rewrite removelast_nth, Lev. destruct (Nat.ltb_spec k (length odds - 1)); [|lia]. apply Nev, Hw.
          - f_equal. apply last_nth. rewrite Lev. replace (length odds - 1)%nat with k by lia. apply Nev, Hw. }
        rewrite Ech. cbn [opt_bind]. destruct k as [|k]; cbn [Nat.eqb andb nth_error parent_scalar] in *.
        - rewrite Hx0. cbn [option_map opt_bind]. eexists. split; [reflexivity|]. apply single_match; [reflexivity|]. left. split; [reflexivity|]. congruence.
        - cbn [opt_bind]. eexists. split; [reflexivity|]. apply single_match; [reflexivity|]. right. destruct Hq as (v & Hv & ->). rewrite (Nod k v Hv) in Hcc. apply Some_inj in Hcc.
          split; [apply Zos, nth_error_Some; rewrite Hv; discriminate|]. exists (w_child v). split; [exact Hpl|]. rewrite HL, <- Hcc. reflexivity. }
      rewrite Hlv1. cbn [opt_bind]. destruct (levels_lockstep_R E1 _ _ R1 HR1 _ _ _ _ _ HF1 Hses1 H1) as (t1' & Ht1 & Hs1). rewrite Ht1. cbn [opt_bind].
      exists t0', t1'. split; [reflexivity|]. split; [exact Hs0|]. split; [exact Hs1|].
      rewrite (last_nth ev v0 (rerandomized (even_p prm) wl (es (length odds - 1)%nat))) by (rewrite Lev; apply Nev; exact Hwl). destruct odds; [discriminate Hwl|]. cbn [length] in Hlen |- *. unfold rerandomized. rewrite ?Hlen. replace (S (length evens) - 1)%nat with (length evens) by lia. reflexivity.
  Qed.
  Lemma sr_lockstep dbg L prm t root d evens odds leaf os es tr0 tr1 s0 s1 (t0 : VState P0) (t1 : VState P1) s0' s1' p r :
    sl_good (even_p prm) -> sl_good (odd_p prm) -> t_commitment t 0 = Some root -> t_opens L 0 d prm root evens odds leaf -> d <> 0%nat -> root_public prm t 0 evens odds ->
    (dbg = true -> t_height t = d) ->
    session E0 (sl_pc (even_p prm)) (sl_bp (even_p prm)) tr0 s0 t0 -> session E1 (sl_pc (odd_p prm)) (sl_bp (odd_p prm)) tr1 s1 t1 ->
    sr_prove E0 E1 enc0 enc1 (sl_pc (even_p prm)) (sl_pc (odd_p prm)) prm evens odds os es s0 s1 = Some (s0', s1', (p, r)) ->
    exists (t0' : VState P0) (t1' : VState P1), sr_verify E0 E1 enc0 enc1 dbg L prm t p t0 t1 = Some (t0', t1', pa_selected p) /\
      session E0 (sl_pc (even_p prm)) (sl_bp (even_p prm)) tr0 s0' t0' /\ session E1 (sl_pc (odd_p prm)) (sl_bp (odd_p prm)) tr1 s1' t1' /\
      pa_selected p = vadd leaf (vsmul r (pcB_blinding (sl_pc (even_p prm)))).
  Proof. apply sr_lockstep_R; apply session_locked. Qed.

  (** A scalar with which a point can be re-randomized. *)
  Definition admissible {F S : PField} {C : SWCurve F S} (prm : SLParams C) (child : C) (r : S) : Prop :=
    let P := vadd child (sl_delta prm) in let h := pcB_blinding (sl_pc prm) in ~ exceptional r /\ P <> v0 /\ vsmul r h <> P /\ vsmul r h <> vopp P.
  Lemma sr_total {n0 n1} L prm root d evens odds leaf os es s0 s1 : sl_good (even_p prm) -> sl_good (odd_p prm) -> sw_a P0 = 0 -> sw_a P1 = 0 ->
    t_opens L 0 d prm root evens odds leaf ->
    (forall i w, nth_error evens i = Some w -> admissible (odd_p prm) (w_child w) (os i)) -> (forall i w, nth_error odds i = Some w -> admissible (even_p prm) (w_child w) (es i)) ->
    honest_from n0 s0 -> honest_from n1 s1 ->
    exists s0' s1' p r, sr_prove E0 E1 enc0 enc1 (sl_pc (even_p prm)) (sl_pc (odd_p prm)) prm evens odds os es s0 s1 = Some (s0', s1', (p, r)) /\
      honest_from n0 s0' /\ honest_from n1 s1' /\ keeps s0 s0' /\ keeps s1 s1' /\ p_def s0' = p_def s0 /\ p_def s1' = p_def s1.
  Proof.
    intros Hg0 Hg1 Ha0 Ha1 Ho Aos Aes Hh0 Hh1. unfold sr_prove.
    assert (Htop : exists top, root_is_even evens odds = Some top).
    { unfold root_is_even. destruct root as [c|c]; cbn [t_opens] in Ho; destruct (opens_leaf _ _ _ _ _ _ _ _ _ _ _ _ _ Ho) as [Hl _].
      - rewrite Hl, Nat.eqb_refl. eauto.
      - destruct (Nat.eqb_spec (length evens) (length odds)); [lia|]. rewrite Nat.add_comm. cbn [Nat.add]. rewrite Hl, Nat.eqb_refl. cbn [guard]. eauto. }
    destruct Htop as (top & ->). cbn [opt_bind].
    assert (IA : forall i w, nth_error evens i = Some w -> exists q, node_ok L 0 (even_p prm) (odd_p prm) q w).
    { destruct root as [c|c]; cbn [t_opens] in Ho; destruct (opens_index _ _ _ _ _ _ _ _ _ _ _ _ _ Ho) as [IA IB]; intros i w Hw.
      - destruct (IA i w Hw) as (q & _ & H). eauto.
      - destruct (IB i w Hw) as (q & _ & H). eauto. }
    assert (IB : forall i w, nth_error odds i = Some w -> exists q, node_ok L 0 (odd_p prm) (even_p prm) q w).
    { destruct root as [c|c]; cbn [t_opens] in Ho; destruct (opens_index _ _ _ _ _ _ _ _ _ _ _ _ _ Ho) as [IA' IB]; intros i w Hw.
      - destruct (IB i w Hw) as (q & _ & H). eauto.
      - destruct (IA' i w Hw) as (q & _ & H). eauto. }
    destruct (levels_total (n := n0) E0 (sl_pc (even_p prm)) (sl_bp (even_p prm)) (single_levels enc1 (odd_p prm) top evens es os) s0) as (s0' & R0 & Hh0' & Hk0); [|exact Hh0|].
    { apply imap_Forall. intros k w Hw. cbn [Nat.add]. destruct (IA k w Hw) as (q & Hq). destruct (Aos k w Hw) as (A1 & A2 & A3 & A4). eapply single_level_ok; eassumption. }
    destruct (levels_total (n := n1) E1 (sl_pc (odd_p prm)) (sl_bp (odd_p prm)) (single_levels enc0 (even_p prm) (negb top) odds os es) s1) as (s1' & R1 & Hh1' & Hk1); [|exact Hh1|].
    { apply imap_Forall. intros k w Hw. cbn [Nat.add]. destruct (IB k w Hw) as (q & Hq). destruct (Aes k w Hw) as (A1 & A2 & A3 & A4). eapply single_level_ok; eassumption. }
    rewrite R0, R1. cbn [opt_bind]. eexists s0', s1', _, _. split; [reflexivity|]. split; [exact Hh0'|]. split; [exact Hh1'|]. split; [exact Hk0|]. split; [exact Hk1|]. split.
    - eapply levels_def; [|exact R0]. apply imap_Forall. intros k w _. cbn [Nat.add pl_gadget]. eexists (fun vars => single_level enc1 (odd_p prm) _ vars None None). intros vars. apply single_level_sim.
    - eapply levels_def; [|exact R1]. apply imap_Forall. intros k w _. cbn [Nat.add pl_gadget]. eexists (fun vars => single_level enc0 (even_p prm) _ vars None None). intros vars. apply single_level_sim.
  Qed.
End PathRun.
