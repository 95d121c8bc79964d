(** * Select-and-rerandomize with the missing constraint: honest provers

    The proofs of SelPath.v for [single_level_from tied], see TiedProofs.v. *)
From Verif Require Export TiedProofs.
From Verif Require Import CSProofs UtilProofs Lockstep CSMore CSLogic GadgetProofs TreeProofs RerandMore RerandArith SelSim SelPath Binding SingleLevel PropsGadgets PropsSingle PropsRerand PropsSelRerand.
Local Open Scope F_scope.

Section TiedProver.
  Context {F0 F1 : PField} {P0 : SWCurve F1 F0} {P1 : SWCurve F0 F1}.
  (** curve_tree_prover.rs 230-250, as [single_levels], with the gadget
      [single_level_from tied] *)
  Definition levels_from (tied : bool) (enc : P1 -> bytes) (prm : SLParams P1) (top : bool) (nodes : list (Wit F0 P1)) (parent_scalars : nat -> F0) (child_scalars : nat -> F1) : list (PLevel F0) :=
    imap (fun i w => mkPL (w_siblings w) (parent_scalar top parent_scalars i) (fun vars =>
      level_from tied enc prm (rerandomized prm w (child_scalars i)) vars (Some (vadd (w_child w) (sl_delta prm))) (Some (child_scalars i)))) 0 nodes.
End TiedProver.
Section TiedProver2.
  Context {F0 F1 : PField} {P0 : SWCurve F1 F0} {P1 : SWCurve F0 F1}.
  Variables (E0 : TrEnv P0) (E1 : TrEnv P1) (enc0 : P0 -> bytes) (enc1 : P1 -> bytes).
  (** curve_tree_prover.rs 186-293, as [sr_prove], with the gadget [single_level_from
      tied] *)
  Definition prove_from (tied : bool) (pc0 : PedersenGens P0) (pc1 : PedersenGens P1) (prm : SRParams P0 P1) (evens : list (Wit F0 P1)) (odds : list (Wit F1 P0))
    (odd_scalars : nat -> F1) (even_scalars : nat -> F0) (s0 : PState F0) (s1 : PState F1) : option (PState F0 * PState F1 * (Path P0 P1 * F0)) :=
    do top <- root_is_even evens odds;
    do s0' <- prove_levels E0 pc0 (sl_bp (even_p prm)) s0 (levels_from tied enc1 (odd_p prm) top evens even_scalars odd_scalars);
    do s1' <- prove_levels E1 pc1 (sl_bp (odd_p prm)) s1 (levels_from tied enc0 (even_p prm) (negb top) odds odd_scalars even_scalars);
    Some (s0', s1', make_path prm evens odds odd_scalars even_scalars).
  (** Without the additional constraint, this is the model of the code. *)
  Lemma prove_from_code pc0 pc1 prm evens odds os es s0 s1 : prove_from false pc0 pc1 prm evens odds os es s0 s1 = sr_prove E0 E1 enc0 enc1 pc0 pc1 prm evens odds os es s0 s1.
  Proof. reflexivity. Qed.
End TiedProver2.

Section StepsLock.
  Context {F : Field} {S : PField} {C : SWCurve F S} {V : VSpace F} (E : TrEnv V) (tied : bool) (enc : C -> bytes) (sl : SLParams C) (pc : PedersenGens V) (g : BPGens V).
  Lemma steps_lockstep R : locked E pc g R -> forall ps (sts : list (Step C V)) s t s', Forall2 (fun p st => level_match pc g p (as_level tied enc sl st)) ps sts -> R s t -> prove_levels E pc g s ps = Some s' ->
    exists t' bs, step_levels E tied enc sl t sts = Some (t', bs) /\ R s' t'.
  Proof.
    intros HR ps sts s t s' HF HRs H. assert (HF' : Forall2 (level_match pc g) ps (map (as_level tied enc sl) sts)) by (clear - HF; induction HF; constructor; assumption).
    destruct (levels_lockstep_R E pc g R HR _ _ _ _ _ HF' HRs H) as (t' & Ht & HR'). rewrite <- step_levels_code in Ht. destruct (step_levels E tied enc sl t sts) as [[t1 bs]|]; [|discriminate Ht]. cbn [option_map fst] in Ht. apply Some_inj in Ht. subst t1. eauto.
  Qed.
End StepsLock.
Section TiedMatch.
  Context {F0 F1 : PField} {P0 : SWCurve F1 F0} {P1 : SWCurve F0 F1}.
  Add Field FFtie0 : (f_th F0).
  Add Field FFtie1 : (f_th F1).
  Lemma tied_match tied enc (prm0 : SLParams P0) (prm1 : SLParams P1) (w : Wit F0 P1) pr cr src ch :
    ch = rerandomized prm1 w cr ->
    (pr = 0 /\ src = inl (w_siblings w)) \/ (pr <> 0 /\ exists q, plain_commitment prm0 0 (w_siblings w) q /\ src = inr (length (w_siblings w), vadd q (vsmul pr (pcB_blinding (sl_pc prm0))))) ->
    level_match (V := P0) (sl_pc prm0) (sl_bp prm0)
      (mkPL (w_siblings w) pr (fun vars => level_from tied enc prm1 (rerandomized prm1 w cr) vars (Some (vadd (w_child w) (sl_delta prm1))) (Some cr)))
      (as_level tied enc prm1 (src, ch)).
  Proof.
    intros -> Hsrc. constructor; cbn [pl_xs pl_r pl_gadget vl_src vl_gadget as_level fst snd]; [|intros vars; unfold level_from; eapply simg_bind; [apply single_sim|]; intros ? ? _; constructor; reflexivity].
    destruct Hsrc as [[-> ->]|[Hne (q & Hq & ->)]].
    - replace (feqb (0 : F0) 0) with true by (symmetry; apply feqb_true; reflexivity). reflexivity.
    - replace (feqb pr 0) with false by (symmetry; apply feqb_false; exact Hne). rewrite (plain_vec prm0 _ _ pr Hq). reflexivity.
  Qed.
  (** an honest level *)
  Lemma tied_level_ok tied (E0 : TrEnv P0) (prm0 : SLParams P0) (prm1 : SLParams P1) enc L ti q (w : Wit F0 P1) pr cr : sl_good prm1 -> sw_a P1 = 0 ->
    node_ok L ti prm0 prm1 q w -> ~ exceptional cr -> let P := vadd (w_child w) (sl_delta prm1) in let h := pcB_blinding (sl_pc prm1) in
    P <> v0 -> vsmul cr h <> P -> vsmul cr h <> vopp P ->
    level_ok E0 (sl_bp prm0) (mkPL (w_siblings w) pr (fun vars => level_from tied enc prm1 (rerandomized prm1 w cr) vars (Some P) (Some cr))).
  Proof.
    intros Hg H0 (HL & (G & HG & HlG & _) & Hin) Hex P h HP Hne Hno. split; [intros EG; rewrite EG in HG; discriminate HG|]. split; cbn [pl_xs pl_gadget].
    - rewrite (nth_error_nth _ _ _ HG). nia.
    - intros n s vars Hh Hok Hvals. destruct (coords_some _ HP) as (x & y & Hxy). fold P in Hin. rewrite Hxy in Hin. cbn [fst] in Hin. rewrite <- Hvals in Hin. apply in_map_iff in Hin as (c & Hc & Hin).
      pose proof (proj2 (proj2 Hg)) as Hgt. assert (Hsm : smooth h (windows (S:=F1)) v0 (digits_of cr)) by (eapply smooth_iff; eassumption).
      destruct (prover_complete E0 (level_from tied enc prm1 (rerandomized prm1 w cr) vars (Some P) (Some cr)) (fun _ _ _ => True) s Hh) as (s' & [] & R1 & R2 & R3 & _).
      + intros ww Hw. unfold level_from. apply wpc_bind. eapply (single_complete ww (agrees_one ww s Hw) tied v0); rewrite ?vadd_0_l; try eassumption.
        * reflexivity.
        * exists x, y, c. split; [exact Hxy|]. split; [exact Hin|]. rewrite (agrees_val ww s) by (try exact Hw; rewrite Forall_forall in Hok; apply Hok, Hin). exact Hc.
        * unfold P, rerandomized. vring.
        * apply issued_one.
        * intros; exact I.
      + eauto.
  Qed.
End TiedMatch.

Section TiedRun.
  Context {F0 F1 : PField} {P0 : SWCurve F1 F0} {P1 : SWCurve F0 F1}.
  Variables (E0 : TrEnv P0) (E1 : TrEnv P1) (enc0 : P0 -> bytes) (enc1 : P1 -> bytes) (tied : bool).
  Implicit Types (prm : SRParams P0 P1) (t : CurveTree P0 P1).
  Lemma lockstep_from R0 R1 dbg L prm t root d evens odds leaf os es s0 s1 (t0 : VState P0) (t1 : VState P1) s0' s1' p r :
    locked E0 (sl_pc (even_p prm)) (sl_bp (even_p prm)) R0 -> locked E1 (sl_pc (odd_p prm)) (sl_bp (odd_p prm)) R1 ->
    t_commitment t 0 = Some root -> t_opens L 0 d prm root evens odds leaf -> d <> 0%nat -> root_public prm t 0 evens odds ->
    (dbg = true -> t_height t = d) -> (forall i, (i < length evens)%nat -> os i <> 0) -> (forall i, (i < length odds)%nat -> es i <> 0) ->
    R0 s0 t0 -> R1 s1 t1 ->
    prove_from E0 E1 enc0 enc1 tied (sl_pc (even_p prm)) (sl_pc (odd_p prm)) prm evens odds os es s0 s1 = Some (s0', s1', (p, r)) ->
    exists (t0' : VState P0) (t1' : VState P1) bits, verify_from E0 E1 enc0 enc1 tied dbg L prm t p t0 t1 = Some (t0', t1', pa_selected p, bits) /\
      R0 s0' t0' /\ R1 s1' t1' /\
      pa_selected p = vadd leaf (vsmul r (pcB_blinding (sl_pc (even_p prm)))).
  Proof.
    intros HR0 HR1 Hroot Ho Hd Hpub Hdbg Zos Zes Hses0 Hses1 Hprove. unfold prove_from in Hprove.
    destruct (root_is_even evens odds) as [top|] eqn:Etop; [|discriminate Hprove]. cbn [opt_bind] in Hprove.
    destruct (prove_levels E0 _ _ s0 _) as [s0''|] eqn:H0; [|discriminate Hprove]. cbn [opt_bind] in Hprove.
    destruct (prove_levels E1 _ _ s1 _) as [s1''|] eqn:H1; [|discriminate Hprove]. cbn [opt_bind] in Hprove.
    apply Some_inj in Hprove. unfold make_path in Hprove. apply pair_inj in Hprove as [Hss Hprove]. apply pair_inj in Hss as [-> ->]. apply pair_inj in Hprove as [<- <-].
    set (ev := imap (fun i w => rerandomized (even_p prm) w (es i)) 0 odds) in *. set (od := imap (fun i w => rerandomized (odd_p prm) w (os i)) 0 evens) in *.
    assert (Lev : length ev = length odds) by apply imap_length. assert (Lod : length od = length evens) by apply imap_length.
    assert (Nev : forall i w, nth_error odds i = Some w -> nth_error ev i = Some (rerandomized (even_p prm) w (es i))) by (intros i w Hw; unfold ev; rewrite imap_nth, Hw; reflexivity).
    assert (Nod : forall i w, nth_error evens i = Some w -> nth_error od i = Some (rerandomized (odd_p prm) w (os i))) by (intros i w Hw; unfold od; rewrite imap_nth, Hw; reflexivity).
    destruct t as [ct|ct]; cbn [t_commitment] in Hroot.
    - destruct (n_commitment ct 0) as [c|] eqn:Ec; [|discriminate Hroot]. apply Some_inj in Hroot. subst root. cbn [t_opens] in Ho.
      destruct (opens_leaf _ _ _ _ _ _ _ _ _ _ _ _ _ Ho) as [Hlen [Hz|(wl & Hwl & ->)]]; [contradiction|].
      destruct (opens_lengths _ _ _ _ _ _ _ _ _ _ _ _ _ Ho) as [Hl1 Hl2]. destruct (opens_index _ _ _ _ _ _ _ _ _ _ _ _ _ Ho) as [IA IB].
      assert (Hn : (1 <= length odds)%nat) by (destruct odds; [discriminate Hwl|cbn; lia]).
      unfold root_is_even in Etop. rewrite Hlen, Nat.eqb_refl in Etop. apply Some_inj in Etop. subst top. cbn [negb] in H1.
      destruct Hpub as (w0 & Hw0 & Hx0).
      unfold verify_from, verification_commitments. cbn [pa_even pa_odd pa_selected]. rewrite removelast_len, Lev, Lod, Hlen.
      replace (length odds - 1 + 1)%nat with (length odds) by lia. rewrite Nat.eqb_refl. cbn [guard]. rewrite Ec. cbn [opt_bind pa_even pa_odd pa_selected length].
      rewrite removelast_len, Lev, Lod, Hlen. replace (S (length odds - 1) + length odds)%nat with d by (pose proof (halves d); lia).
      assert (Edbg : (dbg && negb (t_height (TEven ct) =? d)%nat)%bool = false). { destruct dbg; [|reflexivity]. rewrite (Hdbg eq_refl), Nat.eqb_refl. reflexivity. }
      rewrite Edbg. unfold root_is_odd. cbn [pa_even pa_odd pa_selected length]. rewrite removelast_len, Lev, Lod, Hlen.
      destruct (Nat.eqb_spec (S (length odds - 1) + 1) (length odds)) as [Hx|_]; [lia|]. replace (S (length odds - 1)) with (length odds) by lia. rewrite Nat.eqb_refl. cbn [guard opt_bind].
      unfold even_steps, odd_steps. cbn [pa_even pa_odd pa_selected].
      match goal with |- context [all_some (imap ?fv 0 (c :: removelast ev))] =>
        destruct (levels_pair (fun p (st : (list F0 + nat * P0) * P1) => level_match (V := P0) (sl_pc (even_p prm)) (sl_bp (even_p prm)) p (as_level tied enc1 (odd_p prm) st))
          (fun i w => mkPL (w_siblings w) (parent_scalar true es i) (fun vars => level_from tied enc1 (odd_p prm) (rerandomized (odd_p prm) w (os i)) vars (Some (vadd (w_child w) (sl_delta (odd_p prm)))) (Some (os i)))) fv evens (c :: removelast ev) 0) as (lv0 & Hlv0 & HF0) end.
      { cbn [length]. rewrite removelast_len, Lev. lia. }
      { intros k w cc Hw Hcc. cbn [Nat.add negb]. destruct (IA k w Hw) as (q & Hq & HL & Hpl & _). rewrite (Nod k w Hw). destruct k as [|k]; cbn [Nat.eqb andb nth_error].
        - rewrite Hx0. cbn [option_map opt_bind]. eexists. split; [reflexivity|]. apply tied_match; [reflexivity|]. left. split; [reflexivity|]. congruence.
        - cbn [opt_bind]. eexists. split; [reflexivity|]. apply tied_match; [reflexivity|]. right. destruct Hq as (v & Hv & ->). cbn [nth_error] in Hcc. rewrite removelast_nth, (Nev k v Hv) in Hcc.
          destruct (_ <? _)%nat; [|discriminate Hcc]. apply Some_inj in Hcc. split; [apply Zes, nth_error_Some; rewrite Hv; discriminate|]. exists (w_child v). split; [exact Hpl|]. rewrite HL, <- Hcc. reflexivity. }
      rewrite Hlv0. cbn [opt_bind]. destruct (steps_lockstep E0 tied enc1 _ _ _ R0 HR0 _ _ _ _ _ HF0 Hses0 H0) as (t0' & bs0 & Ht0 & Hs0). rewrite Ht0. cbn [opt_bind fst snd].
      match goal with |- context [all_some (imap ?fv 0 od)] =>
        destruct (levels_pair (fun p (st : (list F1 + nat * P1) * P0) => level_match (V := P1) (sl_pc (odd_p prm)) (sl_bp (odd_p prm)) p (as_level tied enc0 (even_p prm) st))
          (fun i w => mkPL (w_siblings w) (parent_scalar false os i) (fun vars => level_from tied enc0 (even_p prm) (rerandomized (even_p prm) w (es i)) vars (Some (vadd (w_child w) (sl_delta (even_p prm)))) (Some (es i)))) fv odds od 0) as (lv1 & Hlv1 & HF1) end.
      { lia. }
      { intros k w cc Hw Hcc. cbn [Nat.add]. destruct (IB k w Hw) as (v & Hv & HL & Hpl & _). rewrite (Nod k v Hv) in Hcc. apply Some_inj in Hcc. rewrite Lod, Hlen.
        assert (Hk : (k < length odds)%nat) by (apply nth_error_Some; rewrite Hw; discriminate).
        assert (Ech : (if (k <? length odds - 1)%nat then nth_error (c :: removelast ev) (k + 1) else Some (last ev v0)) = Some (rerandomized (even_p prm) w (es k))).
        { destruct (Nat.ltb_spec k (length odds - 1)) as [Hlt|Hge].
          - replace (k + 1)%nat with (S k) by lia. cbn [nth_error]. rewrite removelast_nth, Lev. destruct (Nat.ltb_spec k (length odds - 1)); [|lia]. apply Nev, Hw.
          - f_equal. apply last_nth. rewrite Lev. replace (length odds - 1)%nat with k by lia. apply Nev, Hw. }
        rewrite Ech. cbn [opt_bind]. rewrite Bool.andb_false_r. cbn [opt_bind]. eexists. split; [reflexivity|]. apply tied_match; [reflexivity|]. right. cbn [parent_scalar].
        split; [apply Zos; lia|]. exists (w_child v). split; [exact Hpl|]. rewrite HL, <- Hcc. reflexivity. }
      rewrite Hlv1. cbn [opt_bind]. destruct (steps_lockstep E1 tied enc0 _ _ _ R1 HR1 _ _ _ _ _ HF1 Hses1 H1) as (t1' & bs1 & Ht1 & Hs1). rewrite Ht1. cbn [opt_bind fst snd].
      exists t0', t1', (bs0, bs1). split; [reflexivity|]. split; [exact Hs0|]. split; [exact Hs1|].
      rewrite (last_nth ev v0 (rerandomized (even_p prm) wl (es (length odds - 1)%nat))) by (rewrite Lev; apply Nev; exact Hwl). destruct odds; [discriminate Hwl|]. reflexivity.
    - destruct (n_commitment ct 0) as [c|] eqn:Ec; [|discriminate Hroot]. apply Some_inj in Hroot. subst root. cbn [t_opens] in Ho.
      destruct (opens_leaf _ _ _ _ _ _ _ _ _ _ _ _ _ Ho) as [Hlen (wl & Hwl & ->)].
      destruct (opens_lengths _ _ _ _ _ _ _ _ _ _ _ _ _ Ho) as [Hl1 Hl2]. destruct (opens_index _ _ _ _ _ _ _ _ _ _ _ _ _ Ho) as [IA IB].
      unfold root_is_even in Etop. destruct (Nat.eqb_spec (length evens) (length odds)) as [Hx|_]; [lia|]. rewrite Nat.add_comm in Etop. cbn [Nat.add] in Etop. rewrite Hlen, Nat.eqb_refl in Etop. apply Some_inj in Etop. subst top. cbn [negb] in H1.
      destruct Hpub as (w0 & Hw0 & Hx0).
      unfold verify_from, verification_commitments. cbn [pa_even pa_odd pa_selected]. rewrite removelast_len, Lev, Lod, Hlen.
      replace (S (length evens) - 1)%nat with (length evens) by lia. rewrite Nat.eqb_refl. cbn [guard]. rewrite Ec. cbn [opt_bind pa_even pa_odd pa_selected length].
      rewrite removelast_len, Lev, Lod, Hlen. replace (S (length evens) - 1 + S (length evens))%nat with d by (pose proof (halves d); lia).
      assert (Edbg : (dbg && negb (t_height (TOdd ct) =? d)%nat)%bool = false). { destruct dbg; [|reflexivity]. rewrite (Hdbg eq_refl), Nat.eqb_refl. reflexivity. }
      rewrite Edbg. unfold root_is_odd. cbn [pa_even pa_odd pa_selected length]. rewrite removelast_len, Lev, Lod, Hlen.
      replace (S (length evens) - 1 + 1)%nat with (S (length evens)) by lia. rewrite Nat.eqb_refl. cbn [guard opt_bind].
      unfold even_steps, odd_steps. cbn [pa_even pa_odd pa_selected].
      match goal with |- context [all_some (imap ?fv 0 (removelast ev))] =>
        destruct (levels_pair (fun p (st : (list F0 + nat * P0) * P1) => level_match (V := P0) (sl_pc (even_p prm)) (sl_bp (even_p prm)) p (as_level tied enc1 (odd_p prm) st))
          (fun i w => mkPL (w_siblings w) (parent_scalar false es i) (fun vars => level_from tied enc1 (odd_p prm) (rerandomized (odd_p prm) w (os i)) vars (Some (vadd (w_child w) (sl_delta (odd_p prm)))) (Some (os i)))) fv evens (removelast ev) 0) as (lv0 & Hlv0 & HF0) end.
      { rewrite removelast_len, Lev. lia. }
      { intros k w cc Hw Hcc. cbn [Nat.add negb]. destruct (IB k w Hw) as (v & Hv & HL & Hpl & _). rewrite Bool.andb_false_r. cbn [opt_bind]. replace (k + 1)%nat with (S k) by lia. cbn [nth_error]. rewrite (Nod k w Hw). cbn [opt_bind].
        eexists. split; [reflexivity|]. apply tied_match; [reflexivity|]. right. rewrite removelast_nth, (Nev k v Hv) in Hcc.
        destruct (_ <? _)%nat; [|discriminate Hcc]. apply Some_inj in Hcc. cbn [parent_scalar]. split; [apply Zes, nth_error_Some; rewrite Hv; discriminate|]. exists (w_child v). split; [exact Hpl|]. rewrite HL, <- Hcc. reflexivity. }
      rewrite Hlv0. cbn [opt_bind]. destruct (steps_lockstep E0 tied enc1 _ _ _ R0 HR0 _ _ _ _ _ HF0 Hses0 H0) as (t0' & bs0 & Ht0 & Hs0). rewrite Ht0. cbn [opt_bind fst snd].
      match goal with |- context [all_some (imap ?fv 0 (c :: od))] =>
        destruct (levels_pair (fun p (st : (list F1 + nat * P1) * P0) => level_match (V := P1) (sl_pc (odd_p prm)) (sl_bp (odd_p prm)) p (as_level tied enc0 (even_p prm) st))
          (fun i w => mkPL (w_siblings w) (parent_scalar true os i) (fun vars => level_from tied enc0 (even_p prm) (rerandomized (even_p prm) w (es i)) vars (Some (vadd (w_child w) (sl_delta (even_p prm)))) (Some (es i)))) fv odds (c :: od) 0) as (lv1 & Hlv1 & HF1) end.
      { cbn [length]. lia. }
      { intros k w cc Hw Hcc. cbn [Nat.add length]. destruct (IA k w Hw) as (q & Hq & HL & Hpl & _). rewrite Lod.
        assert (Hk : (k < length odds)%nat) by (apply nth_error_Some; rewrite Hw; discriminate).
        assert (Ech : (if (k <? S (length evens) - 1)%nat then nth_error (removelast ev) k else Some (last ev v0)) = Some (rerandomized (even_p prm) w (es k))).
        { destruct (Nat.ltb_spec k (S (length evens) - 1)) as [Hlt|Hge].
          - rewrite removelast_nth, Lev. destruct (Nat.ltb_spec k (length odds - 1)); [|lia]. apply Nev, Hw.
          - f_equal. apply last_nth. rewrite Lev. replace (length odds - 1)%nat with k by lia. apply Nev, Hw. }
        rewrite Ech. cbn [opt_bind]. destruct k as [|k]; cbn [Nat.eqb andb nth_error parent_scalar] in *.
        - rewrite Hx0. cbn [option_map opt_bind]. eexists. split; [reflexivity|]. apply tied_match; [reflexivity|]. left. split; [reflexivity|]. congruence.
        - cbn [opt_bind]. eexists. split; [reflexivity|]. apply tied_match; [reflexivity|]. right. destruct Hq as (v & Hv & ->). rewrite (Nod k v Hv) in Hcc. apply Some_inj in Hcc.
          split; [apply Zos, nth_error_Some; rewrite Hv; discriminate|]. exists (w_child v). split; [exact Hpl|]. rewrite HL, <- Hcc. reflexivity. }
      rewrite Hlv1. cbn [opt_bind]. destruct (steps_lockstep E1 tied enc0 _ _ _ R1 HR1 _ _ _ _ _ HF1 Hses1 H1) as (t1' & bs1 & Ht1 & Hs1). rewrite Ht1. cbn [opt_bind fst snd].
      exists t0', t1', (bs0, bs1). split; [reflexivity|]. split; [exact Hs0|]. split; [exact Hs1|].
      rewrite (last_nth ev v0 (rerandomized (even_p prm) wl (es (length odds - 1)%nat))) by (rewrite Lev; apply Nev; exact Hwl). destruct odds; [discriminate Hwl|]. cbn [length] in Hlen |- *. unfold rerandomized. rewrite ?Hlen. replace (S (length evens) - 1)%nat with (length evens) by lia. reflexivity.
  Qed.
  Lemma total_from {n0 n1} L prm root d evens odds leaf os es s0 s1 : sl_good (even_p prm) -> sl_good (odd_p prm) -> sw_a P0 = 0 -> sw_a P1 = 0 ->
    t_opens L 0 d prm root evens odds leaf ->
    (forall i w, nth_error evens i = Some w -> admissible (odd_p prm) (w_child w) (os i)) -> (forall i w, nth_error odds i = Some w -> admissible (even_p prm) (w_child w) (es i)) ->
    honest_from n0 s0 -> honest_from n1 s1 ->
    exists s0' s1' p r, prove_from E0 E1 enc0 enc1 tied (sl_pc (even_p prm)) (sl_pc (odd_p prm)) prm evens odds os es s0 s1 = Some (s0', s1', (p, r)) /\
      honest_from n0 s0' /\ honest_from n1 s1' /\ keeps s0 s0' /\ keeps s1 s1' /\ p_def s0' = p_def s0 /\ p_def s1' = p_def s1.
  Proof.
    intros Hg0 Hg1 Ha0 Ha1 Ho Aos Aes Hh0 Hh1. unfold prove_from.
    assert (Htop : exists top, root_is_even evens odds = Some top).
    { unfold root_is_even. destruct root as [c|c]; cbn [t_opens] in Ho; destruct (opens_leaf _ _ _ _ _ _ _ _ _ _ _ _ _ Ho) as [Hl _].
      - rewrite Hl, Nat.eqb_refl. eauto.
      - destruct (Nat.eqb_spec (length evens) (length odds)); [lia|]. rewrite Nat.add_comm. cbn [Nat.add]. rewrite Hl, Nat.eqb_refl. cbn [guard]. eauto. }
    destruct Htop as (top & ->). cbn [opt_bind].
    assert (IA : forall i w, nth_error evens i = Some w -> exists q, node_ok L 0 (even_p prm) (odd_p prm) q w).
    { destruct root as [c|c]; cbn [t_opens] in Ho; destruct (opens_index _ _ _ _ _ _ _ _ _ _ _ _ _ Ho) as [IA IB]; intros i w Hw.
      - destruct (IA i w Hw) as (q & _ & H). eauto.
      - destruct (IB i w Hw) as (q & _ & H). eauto. }
    assert (IB : forall i w, nth_error odds i = Some w -> exists q, node_ok L 0 (odd_p prm) (even_p prm) q w).
    { destruct root as [c|c]; cbn [t_opens] in Ho; destruct (opens_index _ _ _ _ _ _ _ _ _ _ _ _ _ Ho) as [IA' IB]; intros i w Hw.
      - destruct (IB i w Hw) as (q & _ & H). eauto.
      - destruct (IA' i w Hw) as (q & _ & H). eauto. }
    destruct (levels_total (n := n0) E0 (sl_pc (even_p prm)) (sl_bp (even_p prm)) (levels_from tied enc1 (odd_p prm) top evens es os) s0) as (s0' & R0 & Hh0' & Hk0); [|exact Hh0|].
    { apply imap_Forall. intros k w Hw. cbn [Nat.add]. destruct (IA k w Hw) as (q & Hq). destruct (Aos k w Hw) as (A1 & A2 & A3 & A4). eapply tied_level_ok; eassumption. }
    destruct (levels_total (n := n1) E1 (sl_pc (odd_p prm)) (sl_bp (odd_p prm)) (levels_from tied enc0 (even_p prm) (negb top) odds os es) s1) as (s1' & R1 & Hh1' & Hk1); [|exact Hh1|].
    { apply imap_Forall. intros k w Hw. cbn [Nat.add]. destruct (IB k w Hw) as (q & Hq). destruct (Aes k w Hw) as (A1 & A2 & A3 & A4). eapply tied_level_ok; eassumption. }
    rewrite R0, R1. cbn [opt_bind]. eexists s0', s1', _, _. split; [reflexivity|]. split; [exact Hh0'|]. split; [exact Hh1'|]. split; [exact Hk0|]. split; [exact Hk1|]. split.
    - eapply levels_def; [|exact R0]. apply imap_Forall. intros k w _. cbn [Nat.add pl_gadget]. eexists (fun vars => level_from tied enc1 (odd_p prm) _ vars None None). intros vars. unfold level_from; eapply simg_bind; [apply single_sim|]; intros ? ? _; constructor; reflexivity.
    - eapply levels_def; [|exact R1]. apply imap_Forall. intros k w _. cbn [Nat.add pl_gadget]. eexists (fun vars => level_from tied enc0 (even_p prm) _ vars None None). intros vars. unfold level_from; eapply simg_bind; [apply single_sim|]; intros ? ? _; constructor; reflexivity.
  Qed.
End TiedRun.
