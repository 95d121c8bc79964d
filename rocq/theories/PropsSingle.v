(** * Properties of the single-level gadgets (C22, C37-C40)

    [selected w P children]: the value of one of [children] under the assignment [w]
    is the x-coordinate of the finite point [P].  [psum]: sum of a list of points.
    [sums_apart true v0 Ps]: adding the points of [Ps] one after the other never meets
    two points with equal x-coordinate (SingleLevel.v).  [exceptional r]: some window
    of [r] collides with the accumulator (RerandMore.v).

    Curves with a = 0 only (all curves in use): [curve_check] enforces a wrong
    equation otherwise, see C31. *)
From Verif Require Import GadgetProofs CSProofs UtilProofs Lockstep CSMore Toy Curve ToyCurve CurveGadgets SingleLevel SinglePanics Fermat PropsGadgets PropsRerand.
From Coq Require Import Lia.
Local Open Scope F_scope.

Section Alg.
  Context {F : Field} {V : VSpace F}.
  Add Field FFsingle : (f_th F).
  Lemma vadd_sub (a b : V) : vsub (vadd a b) b = a.
  Proof. vring. Qed.
  Lemma no_zero_x {S : PField} {C : SWCurve F S} (P : C) y : sw_a C = 0 -> (forall y : F, y * y <> sw_b C) -> coords P <> Some (0, y).
  Proof. intros H0 Hb HP. apply coords_on in HP. apply (Hb y). rewrite HP, H0. ring. Qed.
End Alg.

(** Running a gadget on both sides of a session. *)
Lemma both_run {F : Field} {V : VSpace F} (E : TrEnv V) pc g tr {A} (p p' : Prog F A) (Q : (Var -> F) -> A -> Prop) s t :
  session E pc g tr s t -> honest s -> simg eq p p' -> (forall w, agrees w s -> wpc w (issued s) p (fun _ => Q w)) ->
  exists s' t' a, prun E p s = Some (s', a) /\ vrun E p' t = Some (t', a) /\ session E pc g tr s' t' /\ honest s' /\ keeps s s' /\
    p_cs s' = v_cs t' /\ satisfies (p_asg s') (v_cs t') /\ Q (p_asg s') a.
Proof.
  intros Hses Hh Hsim HW. destruct (prover_complete E p (fun w _ => Q w) s Hh HW) as (s' & a & R1 & R2 & R3 & ok & _ & R4).
  destruct (session_agree E pc g tr _ _ Hses) as [Hg Ha]. pose proof (simg_same _ _ Hsim) as Hsg.
  destruct (lockstep_prun E pc g p _ _ _ s' a Hsg Hg Ha R1) as (t' & Ht & Hag). exists s', t', a. split; [exact R1|]. split; [exact Ht|].
  split; [eapply ses_gadget; eassumption|]. split; [exact R2|]. split; [exact R3|]. split; [apply (ag_cs _ _ _ _ Hag)|].
  split; [rewrite <- (ag_cs _ _ _ _ Hag); apply honest_satisfies, R2|exact R4].
Qed.
Lemma single_level_unit {F : Field} {S : PField} {C : SWCurve F S} {V : VSpace F} (E : TrEnv V) enc (sl : SLParams C) R children wit r t t' :
  vrun E (single_level enc sl R children wit r) t = Some (t', tt) -> exists bits, vrun E (single_level_from false v0 enc sl R children wit r) t = Some (t', bits).
Proof.
  unfold single_level. rewrite vrun_bind. destruct (vrun E (single_level_from _ _ _ _ _ _ _ _) t) as [[t1 bits]|]; [|discriminate]. cbn [vrun]. intros H. exists bits. congruence.
Qed.
Lemma single_level_unit' {F : Field} {S : PField} {C : SWCurve F S} {V : VSpace F} (E : TrEnv V) enc (sl : SLParams C) R children wit r t t' bits :
  vrun E (single_level_from false v0 enc sl R children wit r) t = Some (t', bits) -> vrun E (single_level enc sl R children wit r) t = Some (t', tt).
Proof. unfold single_level. rewrite vrun_bind. intros ->. reflexivity. Qed.
Lemma batched_unit {F : Field} {S : PField} {C : SWCurve F S} {V : VSpace F} (E : TrEnv V) M (sl : SLParams C) R children wit r t t' :
  vrun E (single_level_batched M sl R children wit r) t = Some (t', tt) -> exists bits, vrun E (single_level_batched_from false v0 M sl R children wit r) t = Some (t', bits).
Proof.
  unfold single_level_batched. rewrite vrun_bind. destruct (vrun E (single_level_batched_from _ _ _ _ _ _ _ _) t) as [[t1 bits]|]; [|discriminate]. cbn [vrun]. intros H. exists bits. congruence.
Qed.
Lemma batched_unit' {F : Field} {S : PField} {C : SWCurve F S} {V : VSpace F} (E : TrEnv V) M (sl : SLParams C) R children wit r t t' bits :
  vrun E (single_level_batched_from false v0 M sl R children wit r) t = Some (t', bits) -> vrun E (single_level_batched M sl R children wit r) t = Some (t', tt).
Proof. unfold single_level_batched. rewrite vrun_bind. intros ->. reflexivity. Qed.

(** ** C37: soundness *)

(** What the code does guarantee: some child slot holds the x-coordinate of a point. *)
Theorem C37_selects_child : forall (F : Field) (S : PField) (C : SWCurve F S) (V : VSpace F) (E : TrEnv V) enc bp pc delta (sl : SLParams C) R children wit r
    (t t' : VState V) w cs,
  sl_new bp pc delta = Some sl -> sw_a C = 0 ->
  vrun E (single_level enc sl R children wit r) t = Some (t', tt) -> incl (v_cs t') cs -> satisfies w cs ->
  exists P : C, selected w P children.
Proof.
  intros F S C V E enc bp pc delta sl R children wit r t t' w cs Hsl H0 H Hi Hs. destruct (sl_new_good _ _ _ _ Hsl) as [Hg _].
  destruct (single_level_unit E _ _ _ _ _ _ _ _ H) as (bits & Hb).
  apply (sound_run E (single_level_from false v0 enc sl R children wit r) w (fun _ => exists P, selected w P children) t t' bits cs); auto.
  intros w1. apply single_selects; assumption.
Qed.
(** But the public point is not connected to it: if any child slot holds the x of
    some point P, then all public points R except at most 2 * windows + 1 of them
    are accepted, with all digits 0.  The property would force R + Delta = +-P. *)
Theorem C37_any_public_point_refuted : forall (F : Field) (S : PField) (C : SWCurve F S) (V : VSpace F) (E : TrEnv V) pcv g tr enc bp pc delta (sl : SLParams C) (P : C),
  sl_new bp pc delta = Some sl -> sw_a C = 0 -> P <> v0 ->
  exists missed : list C, (length missed <= 2 * windows (S:=S) + 1)%nat /\
  forall R, ~ In R missed ->
  forall (s : PState F) (t : VState V) children, session E pcv g tr s t -> honest s -> Forall (lc_ok (issued s)) children -> selected (p_asg s) P children ->
  exists t' bits w, vrun E (single_level_from false v0 enc sl R children None None) t = Some (t', bits) /\
    vrun E (single_level enc sl R children None None) t = Some (t', tt) /\
    satisfies w (v_cs t') /\ agrees w s /\ length bits = windows (S:=S) /\ Forall (fun '(b0, b1, b2) => w b0 = 0 /\ w b1 = 0 /\ w b2 = 0) bits.
Proof.
  intros F S C V E pcv g tr enc bp pc delta sl P Hsl H0 HP. destruct (sl_new_good _ _ _ _ Hsl) as [Hg _]. pose proof (proj2 (proj2 Hg)) as Hgt. pose proof (good_windows _ _ Hgt) as Hm.
  set (h := pcB_blinding (sl_pc sl)) in *. exists (map (fun T => vsub T (sl_delta sl)) (missed h P)). split; [rewrite map_length, missed_length; lia|].
  intros R HR s t children Hses Hh Hok Hsel. set (T := vadd R (sl_delta sl)).
  assert (HT : ~ In T (missed h P)). { intros Hin. apply HR. apply in_map_iff. exists T. split; [apply vadd_sub|exact Hin]. }
  destruct (cheat_smooth h _ P T Hgt HT) as (Hsm & Hne & Hno).
  destruct (both_run E pcv g tr (single_level_from false (vsub T P) enc sl R children (Some P) (Some (0 : S))) (single_level_from false v0 enc sl R children None None)
    (fun w bits => Forall2 (bits_are w) bits (map (digits_of (0 : S)) (seq 1 (windows (S:=S))))) s t Hses Hh) as (s' & t' & bits & R1 & R2 & _ & R4 & R5 & R6 & R7 & R8).
  - apply single_same; assumption.
  - intros w Hw. eapply single_complete; try eassumption.
    + eapply agrees_one; exact Hw.
    + discriminate.
    + destruct Hsel as (x & y & c & E1 & E2 & E3). exists x, y, c. split; [exact E1|]. split; [exact E2|]. rewrite (agrees_val w s) by (try exact Hw; rewrite Forall_forall in Hok; apply Hok, E2). exact E3.
    + fold T h. rewrite cheat_target. reflexivity.
    + apply issued_one.
    + intros ok' bits _ Hb. exact Hb.
  - exists t', bits, (p_asg s'). split; [exact R2|]. split; [eapply single_level_unit'; exact R2|]. split; [exact R7|]. split; [intros v Hv; apply R5; exact Hv|].
    split; [rewrite (Forall2_len R8), map_length, seq_length; reflexivity|].
    assert (Hz : Forall (fun d => d = 0%nat) (map (digits_of (0 : S)) (seq 1 (windows (S:=S))))).
    { apply Forall_forall. intros d Hd. apply in_map_iff in Hd as (i & <- & Hi). apply in_seq in Hi. rewrite digit_spec by lia. unfold digit.
      replace (pf_repr (0 : S)) with 0%N; [rewrite N.div_0_l by (apply N.pow_nonzero; lia); reflexivity|]. change (0 : S) with (fN 0 : S). rewrite pf_repr_of. symmetry. apply N.mod_0_l. pose proof (pf_mod_pos (S:=S)). lia. }
    clear - R8 Hz. induction R8 as [|bs d bits ds Hb _ IH]; [constructor|]. apply Forall_cons_iff in Hz as [-> Hz]. constructor; [|apply IH; exact Hz].
    destruct bs as [[b0 b1] b2]. exact Hb.
Qed.
(** Full soundness once the first accumulator is tied to the first lookup (see C36),
    for the scalar moduli satisfying the size condition.  Missing for the property:
    that constraint in the code; the Pasta moduli. *)
Theorem C37_single_level_sound_partial : forall (F : Field) (S : PField) (C : SWCurve F S) (V : VSpace F) (E : TrEnv V) enc bp pc delta (sl : SLParams C) R children wit r
    (t t' : VState V) bits w cs,
  sl_new bp pc delta = Some sl -> sw_a C = 0 -> sw_b C <> 0 -> (15 * 8 ^ Z.of_nat (windows (S:=S) - 2) <= Z.of_N (pf_mod S))%Z ->
  vrun E (single_level_from true v0 enc sl R children wit r) t = Some (t', bits) -> incl (v_cs t') cs -> satisfies w cs ->
  exists (P : C) (d : nat -> nat), selected w P children /\ (forall i, (d i < 8)%nat) /\ Forall2 (bits_are w) bits (map d (seq 1 (windows (S:=S)))) /\
    vadd R delta = vadd P (vsmul (fZ (digits_int d (windows (S:=S)))) (pcB_blinding pc)).
Proof.
  intros F S C V E enc bp pc delta sl R children wit r t t' bits w cs Hsl H0 Hb0 Hq H Hi Hs. destruct (sl_new_good _ _ _ _ Hsl) as (Hg & _ & Epc & Ed). rewrite <- Epc, <- Ed.
  apply apart_of_modulus in Hq.
  apply (sound_run E (single_level_from true v0 enc sl R children wit r) w (fun bits => exists (P : C) (d : nat -> nat), selected w P children /\ (forall i, (d i < 8)%nat) /\
    Forall2 (bits_are w) bits (map d (seq 1 (windows (S:=S)))) /\ vadd R (sl_delta sl) = vadd P (vsmul (fZ (digits_int d (windows (S:=S)))) (pcB_blinding (sl_pc sl)))) t t' bits cs); auto.
  intros w1. destruct (veqb (vadd R (sl_delta sl)) v0) eqn:EB.
  - apply veqb_true in EB. eapply wps_mono; [|apply single_sound_infinity; eassumption]. intros a [].
  - apply single_sound; try assumption. intros E0. apply veqb_true in E0. congruence.
Qed.
Print Assumptions C37_selects_child.
Print Assumptions C37_any_public_point_refuted.
Print Assumptions C37_single_level_sound_partial.

(** ** C38: empty slots *)

(** If the curve has no point with x = 0, the selected slot does not hold 0; in
    particular, no assignment selects from a vector of empty slots only. *)
Theorem C38_empty_slot_not_selected : forall (F : Field) (S : PField) (C : SWCurve F S) (V : VSpace F) (E : TrEnv V) enc bp pc delta (sl : SLParams C) R children wit r
    (t t' : VState V) w cs,
  sl_new bp pc delta = Some sl -> sw_a C = 0 -> (forall y : F, y * y <> sw_b C) ->
  vrun E (single_level enc sl R children wit r) t = Some (t', tt) -> incl (v_cs t') cs -> satisfies w cs ->
  (forall P : C, selected w P children -> ~ (exists y, coords P = Some (0, y))) /\ exists (P : C) c, In c children /\ lc_val w c <> 0 /\ option_map fst (coords P) = Some (lc_val w c).
Proof.
  intros F S C V E enc bp pc delta sl R children wit r t t' w cs Hsl H0 Hb H Hi Hs.
  assert (N : forall (P : C) y, coords P <> Some (0, y)).
  { intros P y. apply no_zero_x; assumption. }
  split; [intros P _ (y & Hy); exact (N P y Hy)|].
  destruct (C37_selects_child F S C V E enc bp pc delta sl R children wit r t t' w cs Hsl H0 H Hi Hs) as (P & x & y & c & HP & Hin & Hc).
  exists P, c. split; [exact Hin|]. rewrite HP. cbn [option_map fst]. split; [rewrite Hc; intros ->; exact (N P y HP)|rewrite Hc; reflexivity].
Qed.
Theorem C38_all_empty_rejected : forall (F : Field) (S : PField) (C : SWCurve F S) (V : VSpace F) (E : TrEnv V) enc bp pc delta (sl : SLParams C) R children wit r
    (t t' : VState V) w cs,
  sl_new bp pc delta = Some sl -> sw_a C = 0 -> (forall y : F, y * y <> sw_b C) ->
  vrun E (single_level enc sl R children wit r) t = Some (t', tt) -> incl (v_cs t') cs -> Forall (fun c => lc_val w c = 0) children -> ~ satisfies w cs.
Proof.
  intros F S C V E enc bp pc delta sl R children wit r t t' w cs Hsl H0 Hb H Hi Hall Hs.
  destruct (C38_empty_slot_not_selected F S C V E enc bp pc delta sl R children wit r t t' w cs Hsl H0 Hb H Hi Hs) as (_ & P & c & Hin & Hc & _).
  rewrite Forall_forall in Hall. apply Hc, Hall, Hin.
Qed.
(** The curves in use (y^2 = x^3 + 5 over the Pasta fields, y^2 = x^3 + 7 over the
    secp256k1 fields; y^2 = x^3 + 2 for the toy curves) have no point with x = 0. *)
Definition curve_constants : list (N * N) := [(pallas_base, 5); (pallas_scalar, 5); (secp_base, 7); (secp_scalar, 7); (139, 2); (163, 2)]%N.
Theorem C38_curves_in_use : forall (F : PField) b, In (pf_mod F, b) curve_constants -> forall y : F, y * y <> fN b.
Proof.
  intros F b H. assert (G : forall e : positive, (pf_mod F = 2 * Npos e + 1)%N -> (N.eqb (powm (2 * Npos e + 1) b e) 1 = false)%N -> (N.eqb (b mod (2 * Npos e + 1)) 0 = false)%N -> forall y : F, y * y <> fN b).
  { intros e He Hp Hz. apply (euler_nonsquare b e He); rewrite He; apply N.eqb_neq; assumption. }
  assert (Half : forall q e, N.eqb q (2 * Npos e + 1) = true -> q = (2 * Npos e + 1)%N) by (intros q e; apply N.eqb_eq).
  unfold curve_constants in H. cbn [In] in H.
  repeat match type of H with (_ = _) \/ _ => destruct H as [H|H] end; [..|contradiction]; injection H as Hm <-.
  all: match type of Hm with ?q = _ => let e := eval vm_compute in (Pos.div2 (match q with Npos p => p | N0 => 1%positive end)) in apply (G e); [rewrite <- Hm; vm_compute; reflexivity|vm_compute; reflexivity|vm_compute; reflexivity] end.
Qed.
Print Assumptions C38_empty_slot_not_selected.
Print Assumptions C38_all_empty_rejected.
Print Assumptions C38_curves_in_use.

(** ** C39: completeness *)
Theorem C39_single_level_complete : forall (F : Field) (S : PField) (C : SWCurve F S) (V : VSpace F) (E : TrEnv V) pcv g tr enc bp pc delta (sl : SLParams C) (P R : C) r
    (s : PState F) (t : VState V) children,
  sl_new bp pc delta = Some sl -> sw_a C = 0 ->
  ~ exceptional r -> vsmul r (pcB_blinding pc) <> P -> vsmul r (pcB_blinding pc) <> vopp P ->
  vadd R delta = vadd P (vsmul r (pcB_blinding pc)) ->
  session E pcv g tr s t -> honest s -> Forall (lc_ok (issued s)) children -> selected (p_asg s) P children ->
  exists s' t', prun E (single_level enc sl R children (Some P) (Some r)) s = Some (s', tt) /\
    vrun E (single_level enc sl R children None None) t = Some (t', tt) /\
    session E pcv g tr s' t' /\ honest s' /\ keeps s s' /\ p_cs s' = v_cs t' /\ satisfies (p_asg s') (v_cs t').
Proof.
  intros F S C V E pcv g tr enc bp pc delta sl P R r s t children Hsl H0 Hex Hne Hno HR Hses Hh Hok Hsel.
  destruct (sl_new_good _ _ _ _ Hsl) as (Hg & _ & Epc & Ed). pose proof (proj2 (proj2 Hg)) as Hgt. rewrite <- Epc, <- Ed in *.
  assert (Hsm : smooth (pcB_blinding (sl_pc sl)) (windows (S:=S)) v0 (digits_of r)) by (eapply smooth_iff; eassumption).
  assert (HP : P <> v0) by (destruct Hsel as (x & y & c & E1 & _); eapply coords_neq_0; exact E1).
  destruct (both_run E pcv g tr (single_level enc sl R children (Some P) (Some r)) (single_level enc sl R children None None) (fun _ _ => True) s t Hses Hh) as (s' & t' & [] & R1 & R2 & R3 & R4 & R5 & R6 & R7 & _).
  - unfold single_level. eapply simg_bind; [|intros ? ? _; constructor; reflexivity]. apply single_same; rewrite ?vadd_0_l; assumption.
  - intros w Hw. unfold single_level. apply wpc_bind. eapply single_complete; rewrite ?vadd_0_l; try eassumption.
    + eapply agrees_one; exact Hw.
    + discriminate.
    + destruct Hsel as (x & y & c & E1 & E2 & E3). exists x, y, c. split; [exact E1|]. split; [exact E2|]. rewrite (agrees_val w s) by (try exact Hw; rewrite Forall_forall in Hok; apply Hok, E2). exact E3.
    + apply issued_one.
    + intros ok' bits _ Hb. exact I.
  - exists s', t'. auto 8.
Qed.
(** The provisos are exactly what is needed: otherwise the prover panics. *)
Theorem C39_single_level_panics : forall (F : Field) (S : PField) (C : SWCurve F S) (V : VSpace F) (E : TrEnv V) enc bp pc delta (sl : SLParams C) (P R : C) r (s : PState F) children,
  sl_new bp pc delta = Some sl ->
  exceptional r \/ P = v0 \/ vsmul r (pcB_blinding pc) = P \/ vsmul r (pcB_blinding pc) = vopp P ->
  prun E (single_level enc sl R children (Some P) (Some r)) s = None.
Proof.
  intros F S C V E enc bp pc delta sl P R r s children Hsl Hbad. destruct (sl_new_good _ _ _ _ Hsl) as (Hg & _ & Epc & Ed). rewrite <- Epc in Hbad. pose proof (proj2 (proj2 Hg)) as Hgt.
  apply (pret_panic E). unfold single_level. eapply pret_bind; [apply (single_finishes E false v0 enc sl R children P r Hg)|].
  intros a (H1 & H2 & H3 & H4) s1 s2 b _. rewrite vadd_0_l in H2, H3.
  destruct Hbad as [(i & Hi & Hcol)|[Hb|[Hb|Hb]]]; try contradiction.
  destruct (H4 i ltac:(lia)) as [N1 N2]. rewrite acc_pt_0 in N1, N2. unfold win_pt in *. rewrite fZ_smul_opp in N2. pose proof (good_h _ _ Hgt) as Hh. destruct Hcol as [H|H].
  - apply N1. apply fZ_smul_eq; [exact Hh|exact H].
  - apply N2. apply fZ_smul_eq; [exact Hh|]. rewrite <- H. f_equal. lia.
Qed.
Print Assumptions C39_single_level_complete.
Print Assumptions C39_single_level_panics.

(** ** C40: the batched gadget *)
Theorem C40_selects_children : forall (F : Field) (S : PField) (C : SWCurve F S) (V : VSpace F) (E : TrEnv V) bp pc delta (sl : SLParams C) sum L chunks wit r
    (t t' : VState V) w cs,
  sl_new bp pc delta = Some sl -> sw_a C = 0 -> (0 < L)%nat -> chunks <> [] -> Forall (fun c => length c = L) chunks ->
  vrun E (single_level_batched (length chunks) sl sum (concat chunks) wit r) t = Some (t', tt) -> incl (v_cs t') cs -> satisfies w cs ->
  exists Ps : list C, Forall2 (selected w) Ps chunks.
Proof.
  intros F S C V E bp pc delta sl sum L chunks wit r t t' w cs Hsl H0 HL Hne HF H Hi Hs. destruct (sl_new_good _ _ _ _ Hsl) as [Hg _].
  destruct (batched_unit E _ _ _ _ _ _ _ _ H) as (bits & Hb).
  apply (sound_run E (single_level_batched_from false v0 (length chunks) sl sum (concat chunks) wit r) w (fun _ => exists Ps : list C, Forall2 (selected w) Ps chunks) t t' bits cs); auto.
  intros w1. apply (batched_selects w w1 false v0 L); assumption.
Qed.
Theorem C40_batched_sound_partial : forall (F : Field) (S : PField) (C : SWCurve F S) (V : VSpace F) (E : TrEnv V) bp pc delta (sl : SLParams C) sum L chunks wit r
    (t t' : VState V) bits w cs,
  sl_new bp pc delta = Some sl -> sw_a C = 0 -> (15 * 8 ^ Z.of_nat (windows (S:=S) - 2) <= Z.of_N (pf_mod S))%Z ->
  (0 < L)%nat -> chunks <> [] -> Forall (fun c => length c = L) chunks -> 
  let T := vadd sum (vsmul (fN (N.of_nat (length chunks))) delta) in T <> v0 ->
  vrun E (single_level_batched_from true v0 (length chunks) sl sum (concat chunks) wit r) t = Some (t', bits) -> incl (v_cs t') cs -> satisfies w cs ->
  exists (Ps : list C) (d : nat -> nat), Forall2 (selected w) Ps chunks /\ (forall i, (d i < 8)%nat) /\ Forall2 (bits_are w) bits (map d (seq 1 (windows (S:=S)))) /\
    T = vadd (psum Ps) (vsmul (fZ (digits_int d (windows (S:=S)))) (pcB_blinding pc)).
Proof.
  intros F S C V E bp pc delta sl sum L chunks wit r t t' bits w cs Hsl H0 Hq HL Hne HF T HT H Hi Hs. destruct (sl_new_good _ _ _ _ Hsl) as (Hg & _ & Epc & Ed). subst T. rewrite <- Epc, <- Ed in *.
  apply apart_of_modulus in Hq.
  apply (sound_run E (single_level_batched_from true v0 (length chunks) sl sum (concat chunks) wit r) w (fun bits => exists (Ps : list C) (d : nat -> nat), Forall2 (selected w) Ps chunks /\ (forall i, (d i < 8)%nat) /\
    Forall2 (bits_are w) bits (map d (seq 1 (windows (S:=S)))) /\ vadd sum (vsmul (fN (N.of_nat (length chunks))) (sl_delta sl)) = vadd (psum Ps) (vsmul (fZ (digits_int d (windows (S:=S)))) (pcB_blinding (sl_pc sl)))) t t' bits cs); auto.
  intros w1. apply (batched_sound w w1 L); assumption.
Qed.
(** As for one parent, the public sum is not connected to the selected points. *)
Theorem C40_any_public_sum_refuted : forall (F : Field) (S : PField) (C : SWCurve F S) (V : VSpace F) (E : TrEnv V) pcv g tr bp pc delta (sl : SLParams C) (Ps : list C),
  sl_new bp pc delta = Some sl -> sw_a C = 0 -> Ps <> [] -> sums_apart true v0 Ps ->
  exists missed : list C, (length missed <= 2 * windows (S:=S) + 1)%nat /\
  forall R, ~ In R missed ->
  forall L (s : PState F) (t : VState V) chunks, (0 < L)%nat -> Forall (fun c => length c = L) chunks ->
  session E pcv g tr s t -> honest s -> Forall (Forall (lc_ok (issued s))) chunks -> Forall2 (selected (p_asg s)) Ps chunks ->
  exists t' w, vrun E (single_level_batched (length chunks) sl R (concat chunks) None None) t = Some (t', tt) /\ satisfies w (v_cs t') /\ agrees w s.
Proof.
  intros F S C V E pcv g tr bp pc delta sl Ps Hsl H0 Hne Hap. destruct (sl_new_good _ _ _ _ Hsl) as [Hg _]. pose proof (proj2 (proj2 Hg)) as Hgt. pose proof (good_windows _ _ Hgt) as Hm.
  set (h := pcB_blinding (sl_pc sl)) in *. set (D := vsmul (fN (N.of_nat (length Ps)) : S) (sl_delta sl)). exists (map (fun T => vsub T D) (missed h (psum Ps))). split; [rewrite map_length, missed_length; lia|].
  intros R HR L s t chunks HL HF Hses Hh Hok Hsel. set (T := vadd R D). pose proof (Forall2_len Hsel) as Hlen.
  assert (HT : ~ In T (missed h (psum Ps))). { intros Hin. apply HR. apply in_map_iff. exists T. split; [apply vadd_sub|exact Hin]. }
  assert (Hce : chunks <> []) by (destruct chunks, Ps; try discriminate; congruence).
  assert (HPs : Forall (fun P => P <> v0) Ps).
  { clear -Hsel. induction Hsel as [|P c Ps cs HP _ IH]; constructor; [|exact IH]. destruct HP as (x & y & cc & HP & _). eapply coords_neq_0; exact HP. }
  destruct (cheat_smooth h _ (psum Ps) T Hgt HT) as (Hsm & Hn1 & Hn2).
  destruct (both_run E pcv g tr (single_level_batched_from false (vsub T (psum Ps)) (length chunks) sl R (concat chunks) (Some Ps) (Some (0 : S))) (single_level_batched_from false v0 (length chunks) sl R (concat chunks) None None)
    (fun w bits => True) s t Hses Hh) as (s' & t' & bits & R1 & R2 & _ & R4 & R5 & R6 & R7 & R8).
  - apply (batched_same _ _ _ L); assumption.
  - intros w Hw. eapply (batched_complete w (agrees_one w s Hw) _ _ L); try eassumption.
    + discriminate.
    + revert Hsel Hok. clear -Hw. intros Hsel. induction Hsel as [|P c Ps cs HP _ IH]; intros Hok; constructor; apply Forall_cons_iff in Hok as [Hc Hok]; [|apply IH; exact Hok].
      destruct HP as (x & y & cc & E1 & E2 & E3). exists x, y, cc. split; [exact E1|]. split; [exact E2|]. rewrite (agrees_val w s) by (try exact Hw; rewrite Forall_forall in Hc; apply Hc, E2). exact E3.
    + rewrite <- Hlen. fold D T h. rewrite cheat_target. reflexivity.
    + apply issued_one.
    + intros; exact I.
  - exists t', (p_asg s'). split; [eapply batched_unit'; exact R2|]. split; [exact R7|]. intros v Hv; apply R5; exact Hv.
Qed.
Theorem C40_batched_complete : forall (F : Field) (S : PField) (C : SWCurve F S) (V : VSpace F) (E : TrEnv V) pcv g tr bp pc delta (sl : SLParams C) (Ps : list C) R r L
    (s : PState F) (t : VState V) chunks,
  sl_new bp pc delta = Some sl -> sw_a C = 0 -> (0 < L)%nat -> chunks <> [] -> Forall (fun c => length c = L) chunks ->
  ~ exceptional r -> vsmul r (pcB_blinding pc) <> psum Ps -> vsmul r (pcB_blinding pc) <> vopp (psum Ps) -> sums_apart true v0 Ps ->
  vadd R (vsmul (fN (N.of_nat (length chunks))) delta) = vadd (psum Ps) (vsmul r (pcB_blinding pc)) ->
  session E pcv g tr s t -> honest s -> Forall (Forall (lc_ok (issued s))) chunks -> Forall2 (selected (p_asg s)) Ps chunks ->
  exists s' t', prun E (single_level_batched (length chunks) sl R (concat chunks) (Some Ps) (Some r)) s = Some (s', tt) /\
    vrun E (single_level_batched (length chunks) sl R (concat chunks) None None) t = Some (t', tt) /\
    session E pcv g tr s' t' /\ honest s' /\ keeps s s' /\ p_cs s' = v_cs t' /\ satisfies (p_asg s') (v_cs t').
Proof.
  intros F S C V E pcv g tr bp pc delta sl Ps R r L s t chunks Hsl H0 HL Hne HF Hex Hn1 Hn2 Hap HR Hses Hh Hok Hsel.
  destruct (sl_new_good _ _ _ _ Hsl) as (Hg & _ & Epc & Ed). pose proof (proj2 (proj2 Hg)) as Hgt. rewrite <- Epc, <- Ed in *.
  assert (Hsm : smooth (pcB_blinding (sl_pc sl)) (windows (S:=S)) v0 (digits_of r)) by (eapply smooth_iff; eassumption).
  assert (HPs : Forall (fun P => P <> v0) Ps).
  { clear -Hsel. induction Hsel as [|P c Ps cs HP _ IH]; constructor; [|exact IH]. destruct HP as (x & y & cc & HP & _). eapply coords_neq_0; exact HP. }
  destruct (both_run E pcv g tr (single_level_batched (length chunks) sl R (concat chunks) (Some Ps) (Some r)) (single_level_batched (length chunks) sl R (concat chunks) None None) (fun _ _ => True) s t Hses Hh) as (s' & t' & [] & R1 & R2 & R3 & R4 & R5 & R6 & R7 & _).
  - unfold single_level_batched. eapply simg_bind; [|intros ? ? _; constructor; reflexivity]. apply (batched_same _ _ _ L); rewrite ?vadd_0_l; try assumption. apply (Forall2_len Hsel).
  - intros w Hw. unfold single_level_batched. apply wpc_bind. eapply (batched_complete w (agrees_one w s Hw) _ _ L); rewrite ?vadd_0_l; try eassumption.
    + discriminate.
    + revert Hsel Hok. clear -Hw. intros Hsel. induction Hsel as [|P c Ps cs HP _ IH]; intros Hok; constructor; apply Forall_cons_iff in Hok as [Hc Hok]; [|apply IH; exact Hok].
      destruct HP as (x & y & cc & E1 & E2 & E3). exists x, y, cc. split; [exact E1|]. split; [exact E2|]. rewrite (agrees_val w s) by (try exact Hw; rewrite Forall_forall in Hc; apply Hc, E2). exact E3.
    + apply issued_one.
    + intros; exact I.
  - exists s', t'. auto 8.
Qed.
(** An exceptional addition makes the prover panic; in particular when two of the
    paths select the same child one after the other. *)
Theorem C40_batched_panics : forall (F : Field) (S : PField) (C : SWCurve F S) (V : VSpace F) (E : TrEnv V) bp pc delta (sl : SLParams C) (Ps : list C) R r L chunks (s : PState F),
  sl_new bp pc delta = Some sl -> (0 < L)%nat -> chunks <> [] -> Forall (fun c => length c = L) chunks -> length Ps = length chunks -> ~ sums_apart true v0 Ps ->
  prun E (single_level_batched (length chunks) sl R (concat chunks) (Some Ps) (Some r)) s = None.
Proof.
  intros F S C V E bp pc delta sl Ps R r L chunks s Hsl HL Hne HF Hlen Hn. destruct (sl_new_good _ _ _ _ Hsl) as (Hg & _).
  apply (pret_panic E). unfold single_level_batched. eapply pret_bind; [apply (batched_finishes E false v0 L); eassumption|]. intros a Ha. contradiction.
Qed.
Corollary C40_same_child_panics : forall (F : Field) (S : PField) (C : SWCurve F S) (V : VSpace F) (E : TrEnv V) bp pc delta (sl : SLParams C) (P : C) Ps R r L chunks (s : PState F),
  sl_new bp pc delta = Some sl -> (0 < L)%nat -> Forall (fun c => length c = L) chunks -> length (P :: P :: Ps) = length chunks ->
  prun E (single_level_batched (length chunks) sl R (concat chunks) (Some (P :: P :: Ps)) (Some r)) s = None.
Proof.
  intros F S C V E bp pc delta sl P Ps R r L chunks s Hsl HL HF Hlen. apply (C40_batched_panics F S C V E bp pc delta sl (P :: P :: Ps) R r L); auto.
  - intros ->. discriminate.
  - cbn [sums_apart]. intros (_ & H & _). destruct (H eq_refl) as [H1 _]. apply H1. rewrite vadd_0_l. reflexivity.
Qed.
Print Assumptions C40_selects_children.
Print Assumptions C40_batched_sound_partial.
Print Assumptions C40_any_public_sum_refuted.
Print Assumptions C40_batched_complete.
Print Assumptions C40_batched_panics.

(** ** C22: vector commitments *)
Theorem C22_same_commitment : forall (F : Field) (S : PField) (C : SWCurve F S) (E : TrEnv C) (sl : SLParams C) (s : PState S) v b,
  option_map (fun r => fst (snd r)) (p_commit_vec E (sl_pc sl) (sl_bp sl) s v b) = sl_commit sl v b 0.
Proof.
  intros. unfold p_commit_vec, sl_commit. replace (length v * (0 + 1))%nat with (length v) by lia. destruct (share_G (sl_bp sl) 0 (length v)) as [G|]; [|reflexivity].
  cbn [opt_bind]. replace (length v * 0)%nat with 0%nat by lia. cbn [skipn]. unfold guard. destruct (Nat.eqb _ _); reflexivity.
Qed.
(** What [commit] computes: enough generators are needed, otherwise it panics. *)
Lemma sl_commit_spec {F : Field} {S : PField} {C : SWCurve F S} (sl : SLParams C) v b set : 
  sl_commit sl v b set = (do G <- nth_error (G_vec (sl_bp sl)) 0; guard ((length v =? 0) || (length v * (set + 1) <=? length G))%nat
    (Some (vadd (vsmul b (pcB_blinding (sl_pc sl))) (msm v (skipn (length v * set) G))))).
Proof.
  unfold sl_commit, share_G. destruct (nth_error (G_vec (sl_bp sl)) 0) as [G|]; [|reflexivity]. cbn [option_map opt_bind length].
  rewrite skipn_length, firstn_length.
  assert (Eq : Nat.eqb (Datatypes.S (Nat.min (length v * (set + 1)) (length G) - length v * set)) (Datatypes.S (length v)) = ((length v =? 0) || (length v * (set + 1) <=? length G))%nat).
  { apply Bool.eq_iff_eq_true. rewrite Bool.orb_true_iff, !Nat.eqb_eq, Nat.leb_le. nia. }
  rewrite Eq. unfold guard. destruct ((length v =? 0) || (length v * (set + 1) <=? length G))%nat eqn:B; [|reflexivity]. f_equal. cbn [msm]. f_equal.
  rewrite skipn_firstn_comm. rewrite msm_firstn_r by nia. reflexivity.
Qed.
Theorem C22_linear : forall (F : Field) (S : PField) (C : SWCurve F S) (sl : SLParams C) v v' b b' set c c',
  length v = length v' -> sl_commit sl v b set = Some c -> sl_commit sl v' b' set = Some c' ->
  sl_commit sl (zipw fadd v v') (b + b') set = Some (vadd c c').
Proof.
  intros F S C sl v v' b b' set c c' Hl. rewrite !sl_commit_spec. rewrite zipw_length, <- Hl, Nat.min_id. destruct (nth_error (G_vec (sl_bp sl)) 0) as [G|]; [|discriminate].
  cbn [opt_bind]. unfold guard. destruct ((length v =? 0) || (length v * (set + 1) <=? length G))%nat; [|discriminate]. intros H1 H2. apply Some_inj in H1. apply Some_inj in H2. subst c c'.
  f_equal. rewrite msm_add by exact Hl. rewrite vsmul_add_l. rewrite <- !vadd_assoc. f_equal. rewrite !vadd_assoc. f_equal. apply vadd_comm.
Qed.
Theorem C22_blinding : forall (F : Field) (S : PField) (C : SWCurve F S) (sl : SLParams C) v b r set c,
  sl_commit sl v b set = Some c -> sl_commit sl v (b + r) set = Some (vadd c (vsmul r (pcB_blinding (sl_pc sl)))).
Proof.
  intros F S C sl v b r set c. rewrite !sl_commit_spec. destruct (nth_error (G_vec (sl_bp sl)) 0) as [G|]; [|discriminate].
  cbn [opt_bind]. unfold guard. destruct ((length v =? 0) || (length v * (set + 1) <=? length G))%nat; [|discriminate]. intros H1. apply Some_inj in H1. subst c.
  f_equal. rewrite vsmul_add_l. rewrite <- !vadd_assoc. f_equal. apply vadd_comm.
Qed.
(* test data or vocabulary of statements, no code modelled *)
Definition scalar_sum {S : Field} (l : list S) : S := fold_right fadd 0 l.
Lemma skipn_skipn' {A} (a b : nat) : forall l : list A, skipn a (skipn b l) = skipn (a + b) l.
Proof. induction b as [|b IH]; intros l; [rewrite Nat.add_0_r; reflexivity|]. rewrite Nat.add_succ_r. destruct l; [rewrite !skipn_nil; reflexivity|]. cbn [skipn]. apply IH. Qed.
(** Vectors of the same length L committed under sets 0, 1, ..., M - 1. *)
Theorem C22_concatenation : forall (F : Field) (S : PField) (C : SWCurve F S) (sl : SLParams C) L vs bs cs,
  Forall (fun v => length v = L) vs -> length bs = length vs -> length cs = length vs -> vs <> [] ->
  (forall i v b c, nth_error vs i = Some v -> nth_error bs i = Some b -> nth_error cs i = Some c -> sl_commit sl v b i = Some c) ->
  sl_commit sl (concat vs) (scalar_sum bs) 0 = Some (psum cs).
Proof.
  intros F S C sl L vs bs cs HF Hb Hc Hne H.
  assert (Gen : forall vs k bs cs G, nth_error (G_vec (sl_bp sl)) 0 = Some G -> Forall (fun v => length v = L) vs -> length bs = length vs -> length cs = length vs ->
    (forall i v b c, nth_error vs i = Some v -> nth_error bs i = Some b -> nth_error cs i = Some c -> sl_commit sl v b (k + i) = Some c) ->
    (length (concat vs) = 0 \/ k * L + length (concat vs) <= length G)%nat /\ psum cs = vadd (vsmul (scalar_sum bs) (pcB_blinding (sl_pc sl))) (msm (concat vs) (skipn (k * L) G))).
  { clear. induction vs as [|v vs IH]; intros k bs cs G HG HF Hb Hc H.
    - destruct bs; [|discriminate]. destruct cs; [|discriminate]. cbn [concat length]. split; [left; reflexivity|]. cbn [msm scalar_sum fold_right psum]. rewrite vsmul_0_l, vadd_0_l. reflexivity.
    - destruct bs as [|b bs]; [discriminate|]. destruct cs as [|c cs]; [discriminate|]. apply Forall_cons_iff in HF as [Hv HF].
      destruct (IH (Datatypes.S k) bs cs G HG HF) as [I1 I2].
      + injection Hb as Hb. exact Hb.
      + injection Hc as Hc. exact Hc.
      + intros i v1 b1 c1 H1 H2 H3. replace (Datatypes.S k + i)%nat with (k + Datatypes.S i)%nat by lia. exact (H (Datatypes.S i) v1 b1 c1 H1 H2 H3).
      + pose proof (H 0%nat v b c eq_refl eq_refl eq_refl) as H0. rewrite Nat.add_0_r, sl_commit_spec, HG in H0. cbn [opt_bind] in H0. unfold guard in H0. rewrite Hv in H0.
        destruct ((L =? 0) || (L * (k + 1) <=? length G))%nat eqn:EB; [|discriminate]. apply Some_inj in H0. apply Bool.orb_true_iff in EB. rewrite Nat.eqb_eq, Nat.leb_le in EB.
        cbn [concat]. rewrite app_length, Hv. split.
        * destruct EB as [->|EB]; [|destruct I1; lia]. lia.
        * rewrite psum_cons, I2, <- H0. unfold scalar_sum. cbn [fold_right]. 
          destruct (Nat.eq_dec L 0) as [->|HL].
          { destruct v; [|discriminate]. cbn [app msm]. rewrite !Nat.mul_0_r. cbn [skipn]. rewrite vadd_0_r, vsmul_add_l, vadd_assoc. reflexivity. }
          assert (HG2 : (k * L + L <= length G)%nat) by (destruct EB; nia).
          rewrite <- (firstn_skipn L (skipn (k * L) G)). rewrite msm_app by (rewrite firstn_length, skipn_length; lia).
          rewrite skipn_skipn'. replace (L + k * L)%nat with (Datatypes.S k * L)%nat by lia. rewrite (Nat.mul_comm L k).
          replace (msm v (skipn (k * L) G)) with (msm v (firstn L (skipn (k * L) G))) by (apply msm_firstn_r; lia).
          rewrite vsmul_add_l. rewrite <- !vadd_assoc. f_equal. rewrite !vadd_assoc. f_equal. apply vadd_comm. }
  destruct (nth_error (G_vec (sl_bp sl)) 0) as [G|] eqn:HG.
  - destruct (Gen vs 0%nat bs cs G eq_refl HF Hb Hc H) as [I1 I2]. rewrite sl_commit_spec, HG. cbn [opt_bind]. unfold guard.
    replace ((length (concat vs) =? 0) || (length (concat vs) * (0 + 1) <=? length G))%nat with true; [|symmetry; apply Bool.orb_true_iff; rewrite Nat.eqb_eq, Nat.leb_le; lia].
    rewrite I2, Nat.mul_0_r. reflexivity.
  - exfalso. destruct vs as [|v vs]; [congruence|]. destruct bs as [|b bs]; [discriminate|]. destruct cs as [|c cs]; [discriminate|].
    pose proof (H 0%nat v b c eq_refl eq_refl eq_refl) as H0. rewrite sl_commit_spec, HG in H0. discriminate.
Qed.
(** Enough generators suffice for all of this not to panic. *)
Theorem C22_total : forall (F : Field) (S : PField) (C : SWCurve F S) (sl : SLParams C) v b set G,
  nth_error (G_vec (sl_bp sl)) 0 = Some G -> (length v * (set + 1) <= length G)%nat -> exists c, sl_commit sl v b set = Some c.
Proof.
  intros F S C sl v b set G HG Hl. rewrite sl_commit_spec, HG. cbn [opt_bind]. unfold guard.
  replace ((length v =? 0) || (length v * (set + 1) <=? length G))%nat with true; [eauto|symmetry; apply Bool.orb_true_iff; rewrite Nat.leb_le; auto].
Qed.
Print Assumptions C22_same_commitment.
Print Assumptions C22_linear.
Print Assumptions C22_blinding.
Print Assumptions C22_concatenation.
Print Assumptions C22_total.

(** ** The hypotheses are satisfiable: the toy curve y^2 = x^3 + 2 over F_139 *)
Definition toy_bp : BPGens TC0 := toy_gens PM163 8 1.
(* test data or vocabulary of statements, no code modelled *)
Definition toy_pcg : PedersenGens TC0 := toy_pc PM163.
(* test data or vocabulary of statements, no code modelled *)
Definition toy_delta : TC0 := k163 7.
(* test data or vocabulary of statements, no code modelled *)
Definition toy_Q : TC0 := k163 10.
Lemma toy_sl : exists sl, sl_new toy_bp toy_pcg toy_delta = Some sl.
Proof. destruct toy_tables as (ts & H). unfold sl_new. change (pcB_blinding toy_pcg) with toy_h. rewrite H. cbn [opt_bind]. eauto. Qed.
Lemma toy_a : sw_a TC0 = 0. Proof. reflexivity. Qed.
Lemma toy_b : forall y : PF139, y * y <> sw_b TC0.
Proof. intros y. replace (sw_b TC0) with (fN 2 : PF139) by (apply fp_eq; vm_compute; reflexivity). apply (C38_curves_in_use PF139). do 4 right. left. reflexivity. Qed.
Lemma toy_b0 : sw_b TC0 <> 0. Proof. intros H. apply (toy_b 0). rewrite H. apply fmul_0_l. Qed.
Lemma toy_size : (15 * 8 ^ Z.of_nat (windows (S:=PF163) - 2) <= Z.of_N (pf_mod PF163))%Z.
Proof. apply Z.leb_le. vm_compute. reflexivity. Qed.
Lemma toy_coords z : (z mod 163 <> 0)%Z -> exists x y, coords (k163 z) = Some (x, y).
Proof. intros H. apply coords_some. rewrite k163_v0. apply k163_neq. exact H. Qed.
Lemma toy_selected z x y (l r : list (LC PF139)) : coords (k163 z) = Some (x, y) -> selected (p_asg (p_new [])) (k163 z) (l ++ lc_const x :: r).
Proof. intros H. exists x, y, (lc_const x). split; [exact H|]. split; [apply in_app_iff; right; left; reflexivity|apply new_val]. Qed.
Lemma toy_lc_ok (l : list PF139) : Forall (lc_ok (issued (p_new (F:=PF139) []))) (map lc_const l).
Proof. induction l; constructor; [apply new_const|assumption]. Qed.
(* test data or vocabulary of statements, no code modelled *)
Definition toy_ses : session E139 (toy_pc PM139) (toy_gens PM139 1 1) [] (p_new []) (v_new []) := ses_new E139 _ _ [].
(** The re-randomized child: 3 + 77 * 5 - 7 = 381. *)
Definition toy_R : TC0 := k163 381.
Lemma toy_R_eq : vadd toy_R toy_delta = vadd toy_P (vsmul toy_r (pcB_blinding toy_pcg)).
Proof. change (pcB_blinding toy_pcg) with toy_h. unfold toy_R, toy_delta, toy_P, toy_r, toy_h. rewrite toy_mul, !toy_add. reflexivity. Qed.
Lemma toy_ne1 : vsmul toy_r (pcB_blinding toy_pcg) <> toy_P.
Proof. change (pcB_blinding toy_pcg) with toy_h. unfold toy_P, toy_h, toy_r. rewrite toy_mul. apply k163_neq. discriminate. Qed.
Lemma toy_ne2 : vsmul toy_r (pcB_blinding toy_pcg) <> vopp toy_P.
Proof. change (pcB_blinding toy_pcg) with toy_h. unfold toy_P, toy_h, toy_r. rewrite toy_mul, toy_opp. apply k163_neq. discriminate. Qed.

(** [C39_single_level_complete], [C37_selects_child] and [C38_empty_slot_not_selected]
    (children: empty, P, empty). *)
Example C39_demo : exists sl x y s' t', sl_new toy_bp toy_pcg toy_delta = Some sl /\ coords toy_P = Some (x, y) /\ sw_a TC0 = 0 /\ (forall y : PF139, y * y <> sw_b TC0) /\
  let children := map lc_const [0; x; 0] in
  prun E139 (single_level (fun _ => []) sl toy_R children (Some toy_P) (Some toy_r)) (p_new []) = Some (s', tt) /\
  vrun E139 (single_level (fun _ => []) sl toy_R children None None) (v_new []) = Some (t', tt) /\ satisfies (p_asg s') (v_cs t').
Proof.
  destruct toy_sl as (sl & Hsl). destruct (toy_coords 3 ltac:(discriminate)) as (x & y & Hxy).
  destruct (C39_single_level_complete _ _ TC0 (RegV PF139) E139 _ _ _ (fun _ => []) _ _ _ sl toy_P toy_R toy_r (p_new []) (v_new []) (map lc_const [0; x; 0]) Hsl toy_a toy_not_exceptional toy_ne1 toy_ne2 toy_R_eq toy_ses (honest_new []))
    as (s' & t' & R1 & R2 & _ & _ & _ & _ & R3).
  - apply toy_lc_ok.
  - exact (toy_selected 3 x y [lc_const 0] [lc_const 0] Hxy).
  - exists sl, x, y, s', t'. split; [exact Hsl|]. split; [exact Hxy|]. split; [reflexivity|]. split; [exact toy_b|]. split; [exact R1|]. split; [exact R2|exact R3].
Qed.
(** [C37_single_level_sound_partial]. *)
Example C37_tied_demo : exists sl x y (t' : VState (RegV PF139)) bits w, sl_new toy_bp toy_pcg toy_delta = Some sl /\ coords toy_P = Some (x, y) /\ sw_b TC0 <> 0 /\
  vrun E139 (single_level_from true v0 (fun _ => []) sl toy_R (map lc_const [0; x; 0]) None None) (v_new []) = Some (t', bits) /\ satisfies w (v_cs t').
Proof.
  destruct toy_sl as (sl & Hsl). destruct (sl_new_good _ _ _ _ Hsl) as (Hg & _ & Epc & Ed). pose proof (proj2 (proj2 Hg)) as Hgt. destruct (toy_coords 3 ltac:(discriminate)) as (x & y & Hxy).
  assert (Hsm : smooth (pcB_blinding (sl_pc sl)) (windows (S:=PF163)) v0 (digits_of toy_r)) by (eapply smooth_iff; [exact Hgt|exact toy_not_exceptional]).
  assert (N1 : vadd v0 (vsmul toy_r (pcB_blinding (sl_pc sl))) <> toy_P) by (rewrite vadd_0_l, Epc; exact toy_ne1).
  assert (N2 : vadd v0 (vsmul toy_r (pcB_blinding (sl_pc sl))) <> vopp toy_P) by (rewrite vadd_0_l, Epc; exact toy_ne2).
  assert (HP : toy_P <> v0) by (rewrite k163_v0; apply k163_neq; discriminate).
  assert (HR : vadd toy_R (sl_delta sl) = vadd toy_P (vadd v0 (vsmul toy_r (pcB_blinding (sl_pc sl))))) by (rewrite vadd_0_l, Epc, Ed; exact toy_R_eq).
  destruct (both_run E139 _ _ _ (single_level_from true v0 (fun _ => []) sl toy_R (map lc_const [0; x; 0]) (Some toy_P) (Some toy_r)) (single_level_from true v0 (fun _ => []) sl toy_R (map lc_const [0; x; 0]) None None)
    (fun _ _ => True) _ _ toy_ses (honest_new [])) as (s' & t' & bits & _ & R2 & _ & _ & _ & _ & R7 & _).
  - apply single_same; assumption.
  - intros w Hw. eapply single_complete; try eassumption.
    + eapply agrees_one; exact Hw.
    + reflexivity.
    + reflexivity.
    + exists x, y, (lc_const x). split; [exact Hxy|]. split; [right; left; reflexivity|]. apply lc_val_const. eapply agrees_one; exact Hw.
    + apply issued_one.
    + apply toy_lc_ok.
    + intros; exact I.
  - exists sl, x, y, t', bits, (p_asg s'). auto using toy_b0.
Qed.
(** The property fails on the toy curve: a public point R with R + Delta = k163 z,
    although the only child is P = k163 3 and all digits are 0. *)
Theorem C37_sound_refuted : exists sl x y R (t' : VState (RegV PF139)) bits w, sl_new toy_bp toy_pcg toy_delta = Some sl /\ coords toy_P = Some (x, y) /\
  vrun E139 (single_level_from false v0 (fun _ => []) sl R (map lc_const [0; x; 0]) None None) (v_new []) = Some (t', bits) /\ satisfies w (v_cs t') /\
  Forall (fun '(b0, b1, b2) => w b0 = 0 /\ w b1 = 0 /\ w b2 = 0) bits /\ vadd R toy_delta <> toy_P /\ vadd R toy_delta <> vopp toy_P.
Proof.
  destruct toy_sl as (sl & Hsl). destruct (toy_coords 3 ltac:(discriminate)) as (x & y & Hxy).
  assert (HP : toy_P <> v0) by (rewrite k163_v0; apply k163_neq; discriminate).
  destruct (C37_any_public_point_refuted _ _ TC0 (RegV PF139) E139 (toy_pc PM139) (toy_gens PM139 1 1) [] (fun _ => []) _ _ _ sl toy_P Hsl toy_a HP) as (bad & Hlen & Hall).
  assert (HT : exists z, (100 <= z < 110)%Z /\ ~ In (k163 z) bad).
  { set (cand := map k163 [100; 101; 102; 103; 104; 105; 106; 107; 108; 109]%Z).
    destruct (Exists_dec (fun T : TC0 => ~ In T bad) cand) as [He|Hne].
    - intros T. destruct (in_dec (f_eq_dec (F:=PF163)) T bad) as [H|H]; [right; intros H'; exact (H' H)|left; exact H].
    - apply Exists_exists in He as (T & HT & Hn). apply in_map_iff in HT as (z & <- & Hz). exists z. split; [|exact Hn].
      cbn [In] in Hz. lia.
    - exfalso. assert (Hnd : NoDup cand).
      { repeat constructor; cbn [map In cand]; intros Hin; repeat destruct Hin as [Hin|Hin]; try contradiction; symmetry in Hin; revert Hin; apply k163_neq; discriminate. }
      assert (Hincl : incl cand bad).
      { intros T HT. destruct (in_dec (f_eq_dec (F:=PF163)) T bad) as [H|H]; [exact H|]. exfalso. apply Hne. apply Exists_exists. exists T. auto. }
      pose proof (NoDup_incl_length Hnd Hincl) as Hl. change (length cand) with 10%nat in Hl. change (windows (S:=PF163)) with 3%nat in Hlen. lia. }
  destruct HT as (z & Hz & Hn).
  destruct (Hall _ Hn (p_new []) (v_new []) (map lc_const [0; x; 0]) toy_ses (honest_new []) (toy_lc_ok [0; x; 0]) (toy_selected 3 x y [lc_const 0] [lc_const 0] Hxy)) as (t' & bits & w & R1 & _ & R3 & _ & _ & R6).
  exists sl, x, y, (k163 z), t', bits, w. split; [exact Hsl|]. split; [exact Hxy|]. split; [exact R1|]. split; [exact R3|]. split; [exact R6|].
  unfold toy_delta, toy_P. rewrite toy_opp, toy_add. split; apply k163_neq; intros H.
  - change (3 mod 163)%Z with 3%Z in H. rewrite Z.mod_small in H; lia.
  - assert (z + 7 = 160)%Z by (rewrite <- (Z.mod_small (z + 7) 163) by lia; exact H). lia.
Qed.
Print Assumptions C37_sound_refuted.

(** [C40_batched_complete] and [C40_selects_children]: P = 3 and Q = 10 from two parents of two
    children each; 3 + 10 + 77 * 5 - 2 * 7 = 384. *)
Definition toy_sum : TC0 := k163 384.
Lemma toy_sum_eq (n : nat) : n = 2%nat -> vadd toy_sum (vsmul (fN (N.of_nat n) : PF163) toy_delta) = vadd (psum [toy_P; toy_Q]) (vsmul toy_r (pcB_blinding toy_pcg)).
Proof.
  intros ->. change (pcB_blinding toy_pcg) with toy_h. replace (fN (N.of_nat 2) : PF163) with (fp_mk (p:=PM163) 2 : PF163) by (apply fp_eq; vm_compute; reflexivity).
  unfold psum, toy_sum, toy_delta, toy_P, toy_Q, toy_r, toy_h. cbn [fold_right]. rewrite vadd_0_r, !toy_mul, !toy_add. reflexivity.
Qed.
Lemma toy_apart : sums_apart true v0 [toy_P; toy_Q].
Proof.
  cbn [sums_apart]. split; [discriminate|]. split; [|exact I]. intros _. rewrite vadd_0_l. unfold toy_P, toy_Q. rewrite toy_opp. split; apply k163_neq; discriminate.
Qed.
Example C40_demo : exists sl x y x' y' s' t', sl_new toy_bp toy_pcg toy_delta = Some sl /\ coords toy_P = Some (x, y) /\ coords toy_Q = Some (x', y') /\
  let chunks := [map lc_const [0; x]; map lc_const [x'; 0]] in
  prun E139 (single_level_batched (length chunks) sl toy_sum (concat chunks) (Some [toy_P; toy_Q]) (Some toy_r)) (p_new []) = Some (s', tt) /\
  vrun E139 (single_level_batched (length chunks) sl toy_sum (concat chunks) None None) (v_new []) = Some (t', tt) /\ satisfies (p_asg s') (v_cs t').
Proof.
  destruct toy_sl as (sl & Hsl). destruct (toy_coords 3 ltac:(discriminate)) as (x & y & Hxy). destruct (toy_coords 10 ltac:(discriminate)) as (x' & y' & Hxy').
  set (chunks := [map lc_const [0; x]; map lc_const [x'; 0]]).
  destruct (C40_batched_complete _ _ TC0 (RegV PF139) E139 (toy_pc PM139) (toy_gens PM139 1 1) [] _ _ _ sl [toy_P; toy_Q] toy_sum toy_r 2 (p_new []) (v_new []) chunks Hsl toy_a ltac:(lia) ltac:(discriminate))
    as (s' & t' & R1 & R2 & _ & _ & _ & _ & R3).
  - repeat constructor.
  - exact toy_not_exceptional.
  - change (pcB_blinding toy_pcg) with toy_h. unfold psum, toy_P, toy_Q, toy_h, toy_r. cbn [fold_right]. rewrite vadd_0_r, toy_mul, toy_add. apply k163_neq. discriminate.
  - change (pcB_blinding toy_pcg) with toy_h. unfold psum, toy_P, toy_Q, toy_h, toy_r. cbn [fold_right]. rewrite vadd_0_r, toy_mul, toy_add, toy_opp. apply k163_neq. discriminate.
  - exact toy_apart.
  - apply toy_sum_eq. reflexivity.
  - exact toy_ses.
  - apply honest_new.
  - constructor; [exact (toy_lc_ok [0; x])|]. constructor; [exact (toy_lc_ok [x'; 0])|]. constructor.
  - constructor; [exact (toy_selected 3 x y [lc_const 0] [] Hxy)|]. constructor; [exact (toy_selected 10 x' y' [] [lc_const 0] Hxy')|]. constructor.
  - exists sl, x, y, x', y', s', t'. split; [exact Hsl|]. split; [exact Hxy|]. split; [exact Hxy'|]. split; [exact R1|]. split; [exact R2|exact R3].
Qed.
(** [C40_batched_sound_partial]: the same, with the first accumulator tied. *)
Example C40_tied_demo : exists sl x y x' y' (t' : VState (RegV PF139)) bits w, sl_new toy_bp toy_pcg toy_delta = Some sl /\ coords toy_P = Some (x, y) /\ coords toy_Q = Some (x', y') /\
  let chunks := [map lc_const [0; x]; map lc_const [x'; 0]] in
  vadd toy_sum (vsmul (fN (N.of_nat (length chunks)) : PF163) toy_delta) <> v0 /\
  vrun E139 (single_level_batched_from true v0 (length chunks) sl toy_sum (concat chunks) None None) (v_new []) = Some (t', bits) /\ satisfies w (v_cs t').
Proof.
  destruct toy_sl as (sl & Hsl). destruct (sl_new_good _ _ _ _ Hsl) as (Hg & _ & Epc & Ed). pose proof (proj2 (proj2 Hg)) as Hgt.
  destruct (toy_coords 3 ltac:(discriminate)) as (x & y & Hxy). destruct (toy_coords 10 ltac:(discriminate)) as (x' & y' & Hxy').
  set (chunks := [map lc_const [0; x]; map lc_const [x'; 0]]).
  assert (HF : Forall (fun c : list (LC PF139) => length c = 2%nat) chunks) by repeat constructor.
  assert (Hsm : smooth (pcB_blinding (sl_pc sl)) (windows (S:=PF163)) v0 (digits_of toy_r)) by (eapply smooth_iff; [exact Hgt|exact toy_not_exceptional]).
  assert (N1 : vadd v0 (vsmul toy_r (pcB_blinding (sl_pc sl))) <> psum [toy_P; toy_Q]).
  { rewrite vadd_0_l, Epc. change (pcB_blinding toy_pcg) with toy_h. unfold psum, toy_P, toy_Q, toy_h, toy_r. cbn [fold_right]. rewrite vadd_0_r, toy_mul, toy_add. apply k163_neq. discriminate. }
  assert (N2 : vadd v0 (vsmul toy_r (pcB_blinding (sl_pc sl))) <> vopp (psum [toy_P; toy_Q])).
  { rewrite vadd_0_l, Epc. change (pcB_blinding toy_pcg) with toy_h. unfold psum, toy_P, toy_Q, toy_h, toy_r. cbn [fold_right]. rewrite vadd_0_r, toy_mul, toy_add, toy_opp. apply k163_neq. discriminate. }
  assert (HPs : Forall (fun P : TC0 => P <> v0) [toy_P; toy_Q]) by (repeat constructor; rewrite k163_v0; apply k163_neq; discriminate).
  assert (HR : vadd toy_sum (vsmul (fN (N.of_nat (length chunks)) : PF163) (sl_delta sl)) = vadd (psum [toy_P; toy_Q]) (vadd v0 (vsmul toy_r (pcB_blinding (sl_pc sl))))).
  { rewrite vadd_0_l, Epc, Ed. apply toy_sum_eq. reflexivity. }
  destruct (both_run E139 _ _ _ (single_level_batched_from true v0 (length chunks) sl toy_sum (concat chunks) (Some [toy_P; toy_Q]) (Some toy_r)) (single_level_batched_from true v0 (length chunks) sl toy_sum (concat chunks) None None)
    (fun _ _ => True) _ _ toy_ses (honest_new [])) as (s' & t' & bits & _ & R2 & _ & _ & _ & _ & R7 & _).
  - refine (batched_same true v0 v0 2 chunks sl toy_sum [toy_P; toy_Q] toy_r _ _ HF Hg Hsm N1 N2 eq_refl HPs toy_apart); [apply Nat.lt_0_succ|discriminate].
  - intros w Hw. refine (batched_complete w (agrees_one w (p_new []) Hw) true v0 2 chunks sl toy_sum [toy_P; toy_Q] toy_r _ _ _ _ HF Hg toy_a (fun _ => eq_refl) Hsm N1 N2 _ toy_apart HR (issued_one _) _ _).
    + apply Nat.lt_0_succ.
    + discriminate.
    + constructor; [|constructor; [|constructor]].
      * exists x, y, (lc_const x). split; [exact Hxy|]. split; [right; left; reflexivity|]. apply lc_val_const. exact (agrees_one w (p_new []) Hw).
      * exists x', y', (lc_const x'). split; [exact Hxy'|]. split; [left; reflexivity|]. apply lc_val_const. exact (agrees_one w (p_new []) Hw).
    + constructor; [exact (toy_lc_ok [0; x])|]. constructor; [exact (toy_lc_ok [x'; 0])|]. constructor.
    + intros; exact I.
  - exists sl, x, y, x', y', t', bits, (p_asg s'). split; [exact Hsl|]. split; [exact Hxy|]. split; [exact Hxy'|]. split; [|split; [exact R2|exact R7]].
    intros Hc. pose proof (eq_trans (eq_sym (toy_sum_eq (length chunks) eq_refl)) Hc) as Hz. revert Hz. change (pcB_blinding toy_pcg) with toy_h. unfold psum, toy_P, toy_Q, toy_h, toy_r. cbn [fold_right]. rewrite vadd_0_r, toy_mul, !toy_add, k163_v0. apply k163_neq. discriminate.
Qed.
(** C22: (1, 2) under set 0 and (3, 4) under set 1 with eight generators. *)
Example C22_demo : exists sl c0 c1, sl_new toy_bp toy_pcg toy_delta = Some sl /\
  sl_commit sl (map (fp_mk (p:=PM163)) [1; 2]%Z) (fp_mk (p:=PM163) 9) 0 = Some c0 /\ sl_commit sl (map (fp_mk (p:=PM163)) [3; 4]%Z) (fp_mk (p:=PM163) 8) 1 = Some c1.
Proof.
  destruct toy_sl as (sl & Hsl). destruct (sl_new_good _ _ _ _ Hsl) as (_ & Eb & _).
  assert (HG : exists G, nth_error (G_vec (sl_bp sl)) 0 = Some G /\ length G = 8%nat) by (rewrite Eb; eexists; split; reflexivity).
  destruct HG as (G & HG & Hl).
  destruct (C22_total _ _ TC0 sl (map (fp_mk (p:=PM163)) [1; 2]%Z) (fp_mk (p:=PM163) 9) 0 G HG) as (c0 & H0); [rewrite Hl, map_length; cbn [length]; lia|].
  destruct (C22_total _ _ TC0 sl (map (fp_mk (p:=PM163)) [3; 4]%Z) (fp_mk (p:=PM163) 8) 1 G HG) as (c1 & H1); [rewrite Hl, map_length; cbn [length]; lia|].
  exists sl, c0, c1. auto.
Qed.
