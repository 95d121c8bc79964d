(** * Select-and-rerandomize with the missing constraint: vocabulary and proofs

    [verify_from tied]: the verifier of SelRerand.v with the gadget
    [single_level_from tied] at every level.  [tied = false] is the code
    ([verify_from_code] below); [tied = true] adds the one constraint that is missing
    from [re_randomize] (C36).  The variables of the digits are returned as well. *)
From Verif Require Export PourProofs.
From Verif Require Import CSProofs UtilProofs Lockstep CSMore CSLogic GadgetProofs TreeProofs RerandMore RerandArith SelSim SelPath Binding SingleLevel PropsGadgets PropsSingle PropsRerand PropsSelRerand.
Local Open Scope F_scope.

(** ** The verifier *)
Section TiedLevels.
  Context {F : Field} {S : PField} {C : SWCurve F S} {V : VSpace F} (E : TrEnv V) (tied : bool) (enc : C -> bytes) (sl : SLParams C).
  (** A level: the source of the children (as in [VLevel]) and the public child (no code
      modelled). *)
  Definition Step : Type := ((list F + nat * V) * C)%type.
  (** curve_tree_verifier.rs 110-142: one level, as [verify_level], with the gadget
      [single_level_from tied] *)
  Definition step_level (t : VState V) (st : Step) : option (VState V * list (Var * Var * Var)) :=
    let '(t1, vars) := match fst st with
                       | inl xs => (t, map lc_const xs)
                       | inr (dim, c) => let r := v_commit_vec E t dim c in (fst r, map lc_var (snd r))
                       end in
    vrun E (single_level_from tied v0 enc sl (snd st) vars None None) t1.
  (** curve_tree_verifier.rs 104-143, 157-200: the loops, as [verify_levels] *)
  Fixpoint step_levels (t : VState V) (sts : list Step) : option (VState V * list (list (Var * Var * Var))) :=
    match sts with
    | [] => Some (t, [])
    | st :: r => do tb <- step_level t st; do tbs <- step_levels (fst tb) r; Some (fst tbs, snd tb :: snd tbs)
    end.
  (** single_level_select_and_rerandomize.rs 73-126, as [single_level] *)
  Definition level_from (R : C) (children : list (LC F)) (child_plus_delta : option C) (randomness : option S) : Prog F unit :=
    pbind (single_level_from tied v0 enc sl R children child_plus_delta randomness) (fun _ => PRet tt).
  (** The level as in SelRerand.v (no code modelled). *)
  Definition as_level (st : Step) : VLevel V := mkVL (fst st) (fun vars => level_from (snd st) vars None None).
End TiedLevels.
Arguments Step {F S} C V.

Section TiedVerifier.
  Context {F0 F1 : PField} {P0 : SWCurve F1 F0} {P1 : SWCurve F0 F1}.
  Variables (E0 : TrEnv P0) (E1 : TrEnv P1) (enc0 : P0 -> bytes) (enc1 : P1 -> bytes).
  (** curve_tree_verifier.rs 104-143, as [even_levels] *)
  Definition even_steps (L : nat) (prm : SRParams P0 P1) (t : CurveTree P0 P1) (p : Path P0 P1) (odd_root : bool) : option (list (Step P1 P0)) :=
    all_some (imap (fun i c =>
      do src <- (if ((i =? 0)%nat && negb odd_root)%bool then option_map inl (root_xs_even prm t 0) else Some (inr (L, c)));
      do ch <- nth_error (pa_odd p) (if odd_root then i + 1 else i)%nat;
      Some (src, ch)) 0 (pa_even p)).
  (** curve_tree_verifier.rs 157-200, as [odd_levels] *)
  Definition odd_steps (L : nat) (prm : SRParams P0 P1) (t : CurveTree P0 P1) (p : Path P0 P1) (odd_root : bool) : option (list (Step P0 P1)) :=
    all_some (imap (fun i c =>
      do ch <- (if (i <? length (pa_odd p) - 1)%nat then nth_error (pa_even p) (if odd_root then i else i + 1)%nat else Some (pa_selected p));
      do src <- (if ((i =? 0)%nat && odd_root)%bool then option_map inl (root_xs_odd prm t 0) else Some (inr (L, c)));
      Some (src, ch)) 0 (pa_odd p)).
  (** curve_tree_verifier.rs 59-77, as [sr_verify], with the gadget [single_level_from
      tied]; also returns the variables of the digits of every level *)
  Definition verify_from (tied dbg : bool) (L : nat) (prm : SRParams P0 P1) (t : CurveTree P0 P1) (p : Path P0 P1) (t0 : VState P0) (t1 : VState P1) :
    option (VState P0 * VState P1 * P0 * (list (list (Var * Var * Var)) * list (list (Var * Var * Var)))) :=
    do p' <- verification_commitments t p;
    if (dbg && negb (t_height t =? length (pa_even p') + length (pa_odd p'))%nat)%bool then None else
    do odd_root <- root_is_odd p';
    do sts0 <- even_steps L prm t p' odd_root;
    do r0 <- step_levels E0 tied enc1 (odd_p prm) t0 sts0;
    do sts1 <- odd_steps L prm t p' odd_root;
    do r1 <- step_levels E1 tied enc0 (even_p prm) t1 sts1;
    Some (fst r0, fst r1, pa_selected p', (snd r0, snd r1)).
End TiedVerifier.

Lemma all_some_map_imap {A B C} (f : nat -> A -> option B) (g : nat -> A -> option C) (h : B -> C) : (forall i a, g i a = option_map h (f i a)) ->
  forall l i, all_some (imap g i l) = option_map (map h) (all_some (imap f i l)).
Proof.
  intros H. induction l as [|a l IH]; intros i; cbn [imap all_some]; [reflexivity|]. rewrite H, IH. destruct (f i a); [|reflexivity]. cbn [option_map opt_bind]. destruct (all_some (imap f (S i) l)); reflexivity.
Qed.
Section Code.
  Context {F : Field} {S : PField} {C : SWCurve F S} {V : VSpace F} (E : TrEnv V) (tied : bool) (enc : C -> bytes) (sl : SLParams C).
  Lemma step_level_code (t : VState V) (st : Step C V) : option_map fst (step_level E tied enc sl t st) = verify_level E t (as_level tied enc sl st).
  Proof.
    unfold step_level, verify_level, as_level. cbn [vl_src vl_gadget]. destruct (fst st) as [xs|[dim c]]; unfold level_from; rewrite vrun_bind;
      destruct (vrun E (single_level_from _ _ _ _ _ _ _ _) _) as [[t1 b]|]; reflexivity.
  Qed.
  Lemma step_levels_code (sts : list (Step C V)) : forall t : VState V, option_map fst (step_levels E tied enc sl t sts) = verify_levels E t (map (as_level tied enc sl) sts).
  Proof.
    induction sts as [|st sts IH]; intros t; cbn [step_levels verify_levels map]; [reflexivity|]. rewrite <- step_level_code. destruct (step_level E tied enc sl t st) as [[t1 b]|]; [|reflexivity].
    cbn [opt_bind option_map fst snd]. rewrite <- IH. destruct (step_levels E tied enc sl t1 sts) as [[t2 bs]|]; reflexivity.
  Qed.
End Code.
(** Without the additional constraint, [verify_from] is the model of the code. *)
Lemma verify_from_code {F0 F1 : PField} {P0 : SWCurve F1 F0} {P1 : SWCurve F0 F1} (E0 : TrEnv P0) (E1 : TrEnv P1) enc0 enc1 dbg L (prm : SRParams P0 P1) t p (t0 : VState P0) (t1 : VState P1) :
  option_map fst (verify_from E0 E1 enc0 enc1 false dbg L prm t p t0 t1) = sr_verify E0 E1 enc0 enc1 dbg L prm t p t0 t1.
Proof.
  unfold verify_from, sr_verify. destruct (verification_commitments t p) as [p'|]; [|reflexivity]. cbn [opt_bind]. destruct (_ && _)%bool; [reflexivity|]. unfold even_gadget, odd_gadget.
  destruct (root_is_odd p') as [o|]; [|reflexivity]. cbn [opt_bind].
  assert (He : even_levels enc1 L prm t p' o = option_map (map (as_level false enc1 (odd_p prm))) (even_steps L prm t p' o)).
  { apply all_some_map_imap. intros i a. destruct (if (_ && _)%bool then _ else _) as [src|]; [|reflexivity]. cbn [opt_bind]. destruct (nth_error _ _); reflexivity. }
  assert (Ho : odd_levels enc0 L prm t p' o = option_map (map (as_level false enc0 (even_p prm))) (odd_steps L prm t p' o)).
  { apply all_some_map_imap. intros i a. match goal with |- opt_bind ?c _ = _ => destruct c as [ch|]; [|reflexivity] end. cbn [opt_bind]. match goal with |- opt_bind ?c _ = _ => destruct c as [src|]; reflexivity end. }
  rewrite He, Ho. destruct (even_steps L prm t p' o) as [sts0|]; [|reflexivity]. cbn [opt_bind option_map]. rewrite <- step_levels_code. destruct (step_levels E0 false enc1 (odd_p prm) t0 sts0) as [[t0' b0]|]; [|reflexivity].
  cbn [opt_bind option_map fst snd]. destruct (odd_steps L prm t p' o) as [sts1|]; [|reflexivity]. cbn [opt_bind option_map]. rewrite <- step_levels_code. destruct (step_levels E1 false enc0 (even_p prm) t1 sts1) as [[t1' b1]|]; reflexivity.
Qed.

(** ** Vocabulary of the statements (no code modelled) *)

(** Value of three bits and of a list of digits, least significant first, under an
    assignment. *)
Definition bits_value {F : Field} (w : Var -> F) (bs : Var * Var * Var) : nat :=
  let '(b0, b1, b2) := bs in (Nat.b2n (negb (feqb (w b0) 0)) + 2 * Nat.b2n (negb (feqb (w b1) 0)) + 4 * Nat.b2n (negb (feqb (w b2) 0)))%nat.
(* vocabulary of specifications and proofs, no code modelled *)
Definition scalar_of {F S : Field} (w : Var -> F) (bits : list (Var * Var * Var)) : S := fZ (digits_int (fun i => nth (i - 1) (map (bits_value w) bits) 0%nat) (length bits)).
(** The values of the k-th vector commitment under an assignment (no code
    modelled). *)
Definition vec_values {F : Field} (w : Var -> F) (k dim : nat) : list F := map (fun j => w (VectorCommit k j)) (seq 0 dim).
(** [w] and the blindings [bl] open every vector commitment of the state [t] (no code
    modelled). *)
Definition all_opened {F : Field} {V : VSpace F} (pc : PedersenGens V) (g : BPGens V) (w : Var -> F) (bl : nat -> F) (t : VState V) : Prop :=
  forall k c dim, nth_error (v_vec t) k = Some (c, dim) -> c = vec_commitment pc g (bl k) (vec_values w k dim).
(** [R] is [c] re-randomized by [r], up to the sign of [c + Delta] (no code
    modelled). *)
Definition rerandomizes {F : Field} {S : PField} {C : SWCurve F S} (prm : SLParams C) (c R : C) (e r : S) : Prop :=
  (e = 1 \/ e = - (1)) /\ vadd R (sl_delta prm) = vadd (vsmul e (vadd c (sl_delta prm))) (vsmul r (pcB_blinding (sl_pc prm))).
(** The values [xs] of the children of a node and the opening [ys], [s] of a
    commitment give a non-trivial relation between B~, Delta and the generators (no code
    modelled). *)
Definition clash {F : Field} {S : PField} {C : SWCurve F S} (prm : SLParams C) (xs ys : list S) (s r e : S) : Prop :=
  let a := (s - r) :: (1 - e) :: zipw fsub ys (map (fmul e) xs) in
  Exists (fun x => x <> 0) a /\ msm a (pcB_blinding (sl_pc prm) :: sl_delta prm :: nth 0 (G_vec (sl_bp prm)) []) = v0.
(** [xs] are the values of the children of an inner node of a tree of height [d] (no code
    modelled). *)
Fixpoint values_in (d : nat) {F0 F1 : PField} {P0 : SWCurve F1 F0} {P1 : SWCurve F0 F1} (delta0 : P0) (delta1 : P1) (n : Node P0 P1) (xs : list F0 + list F1) : Prop :=
  match d, n with
  | S d', Branch _ cs _ _ => (exists ys, xs = inl ys /\ Forall2 (slot_value delta1 0) cs ys) \/ exists c, In (Some c) cs /\ values_in d' delta1 delta0 c (swap_sum xs)
  | _, _ => False
  end.
(* vocabulary of specifications and proofs, no code modelled *)
Definition t_values {F0 F1 : PField} {P0 : SWCurve F1 F0} {P1 : SWCurve F0 F1} (prm : SRParams P0 P1) (t : CurveTree P0 P1) (xs : list F0 + list F1) : Prop :=
  match t with
  | TEven n => values_in (n_height n) (sl_delta (even_p prm)) (sl_delta (odd_p prm)) n xs
  | TOdd n => values_in (n_height n) (sl_delta (odd_p prm)) (sl_delta (even_p prm)) n (swap_sum xs)
  end.

(** ** What a level says *)
Section Facts.
  Context {F : Field} {S : PField} {C : SWCurve F S} {V : VSpace F} (E : TrEnv V) (enc : C -> bytes).
  Add Field FFtied : (f_th F).

  Lemma bits_value_are (w : Var -> F) bs d : (d < 8)%nat -> bits_are w bs d -> bits_value w bs = d.
  Proof.
    intros Hd. destruct bs as [[b0 b1] b2]. unfold bits_are, bits_value. intros (-> & -> & ->).
    assert (Hb : forall b, negb (feqb (b2f b : F) 0) = b).
    { intros []; unfold b2f; [|rewrite (proj2 (feqb_true (0 : F) 0) eq_refl); reflexivity]. destruct (feqb (1 : F) 0) eqn:E1; [|reflexivity]. apply feqb_true in E1. exact (False_ind _ (f1_neq_0 E1)). }
    rewrite !Hb. do 8 (destruct d as [|d]; [reflexivity|]). lia.
  Qed.
  Lemma digits_ext d d' n : (forall i, (1 <= i <= n)%nat -> d i = d' i) -> digits_int d n = digits_int d' n.
  Proof. induction n as [|n IH]; intros H; [reflexivity|]. cbn [digits_int]. rewrite IH by (intros; apply H; lia). rewrite H by lia. reflexivity. Qed.
  Lemma scalar_of_digits (w : Var -> F) bits d n : (forall i, (d i < 8)%nat) -> Forall2 (bits_are w) bits (map d (seq 1 n)) -> scalar_of (S := S) w bits = fZ (digits_int d n).
  Proof.
    intros Hd H. pose proof (Forall2_len _ _ _ H) as Hl. rewrite map_length, seq_length in Hl. unfold scalar_of. rewrite Hl. f_equal. apply digits_ext. intros i Hi.
    assert (Em : map (bits_value w) bits = map d (seq 1 n)).
    { clear Hl Hi. revert H. generalize (seq 1 n). intros l. revert bits. induction l as [|a l IH]; intros bits H; inversion H; subst; [reflexivity|]. cbn [map]. rewrite (bits_value_are w _ (d a)), (IH l0) by auto. reflexivity. }
    rewrite Em. rewrite (nth_indep _ _ (d 0%nat)) by (rewrite map_length, seq_length; lia). rewrite map_nth, seq_nth by lia. f_equal. lia.
  Qed.

  (** The values of the children of a level (no code
    modelled). *)
  Definition src_values (w : Var -> F) (t' : VState V) (src : list F + nat * V) (xs : list F) : Prop :=
    match src with inl ys => xs = ys | inr (dim, c) => exists k, nth_error (v_vec t') k = Some (c, dim) /\ xs = vec_values w k dim end.
  Definition says (w : Var -> F) (t' : VState V) (sl : SLParams C) (st : Step C V) (b : list (Var * Var * Var)) : Prop :=
    exists xs (P : C) x y, src_values w t' (fst st) xs /\ coords P = Some (x, y) /\ In x xs /\ vadd (snd st) (sl_delta sl) = vadd P (vsmul (scalar_of w b) (pcB_blinding (sl_pc sl))).

  Lemma step_grows sl tied (t : VState V) (st : Step C V) t' b : step_level E tied enc sl t st = Some (t', b) -> grows t t'.
  Proof.
    unfold step_level. destruct (fst st) as [xs|[dim c]]; intros H; [eapply vrun_grows; exact H|]. eapply grows_trans; [apply (commit_grows E)|]. eapply vrun_grows; exact H.
  Qed.
  Lemma steps_grow sl tied (sts : list (Step C V)) : forall (t : VState V) t' bs, step_levels E tied enc sl t sts = Some (t', bs) -> grows t t'.
  Proof.
    induction sts as [|st sts IH]; intros t t' bs H; cbn [step_levels] in H; [apply Some_inj, pair_inj in H as [<- _]; apply grows_refl|].
    destruct (step_level E tied enc sl t st) as [[t1 b]|] eqn:E1; [|discriminate]. cbn [opt_bind fst snd] in H. destruct (step_levels E tied enc sl t1 sts) as [[t2 bs']|] eqn:E2; [|discriminate]. cbn [opt_bind fst snd] in H.
    apply Some_inj, pair_inj in H as [<- _]. eapply grows_trans; [eapply step_grows; exact E1|eapply IH; exact E2].
  Qed.
  Lemma lc_val_map_const (w : Var -> F) xs : w One = 1 -> map (lc_val w) (map lc_const xs) = xs.
  Proof. intros H1. rewrite map_map. rewrite <- (map_id xs) at 2. apply map_ext. intros x. apply lc_val_const. exact H1. Qed.

  Lemma step_says bp pc delta (sl : SLParams C) (t t' tf : VState V) (st : Step C V) b w cs :
    sl_new bp pc delta = Some sl -> sw_a C = 0 -> sw_b C <> 0 -> (15 * 8 ^ Z.of_nat (windows (S:=S) - 2) <= Z.of_N (pf_mod S))%Z ->
    step_level E true enc sl t st = Some (t', b) -> grows t' tf -> incl (v_cs t') cs -> satisfies w cs -> says w tf sl st b.
  Proof.
    intros Hsl H0 Hb Hq H Hgr Hi Hs. unfold step_level in H. unfold says. destruct (sl_new_good _ _ _ _ Hsl) as (_ & _ & Epc & Ed).
    destruct (fst st) as [xs|[dim c]] eqn:Est.
    - destruct (C37_single_level_sound_partial F S C V E enc bp pc delta sl (snd st) _ None None _ _ _ w cs Hsl H0 Hb Hq H Hi Hs) as (P & d & (x & y & e & Hc & Hin & Hx) & Hd & Hbits & HR).
      exists xs, P, x, y. split; [reflexivity|]. split; [exact Hc|]. split.
      + rewrite <- (lc_val_map_const w xs) by apply Hs. rewrite <- Hx. apply in_map, Hin.
      + rewrite (scalar_of_digits w b d (windows (S:=S))) by assumption. rewrite Epc, Ed. exact HR.
    - destruct (v_commit_vec E t dim c) as [t1 vars] eqn:Ev. cbn [fst snd] in H.
      destruct (C37_single_level_sound_partial F S C V E enc bp pc delta sl (snd st) _ None None _ _ _ w cs Hsl H0 Hb Hq H Hi Hs) as (P & d & (x & y & e & Hc & Hin & Hx) & Hd & Hbits & HR).
      unfold v_commit_vec in Ev. apply pair_inj in Ev as [<- <-].
      exists (vec_values w (length (v_vec t)) dim), P, x, y. split; [|split; [exact Hc|split]].
      + exists (length (v_vec t)). split; [|reflexivity]. eapply grows_nth; [eapply grows_trans; [eapply vrun_grows; exact H|exact Hgr]|]. cbn [v_vec]. rewrite nth_error_app2, Nat.sub_diag by lia. reflexivity.
      + apply in_map_iff in Hin as (v & <- & Hv). apply in_map_iff in Hv as (j & <- & Hj). rewrite lc_val_var in Hx. unfold vec_values. rewrite <- Hx. apply (in_map (fun j => w (VectorCommit (length (v_vec t)) j))). exact Hj.
      + rewrite (scalar_of_digits w b d (windows (S:=S))) by assumption. rewrite Epc, Ed. exact HR.
  Qed.
  Lemma steps_say bp pc delta (sl : SLParams C) (tf : VState V) w cs :
    sl_new bp pc delta = Some sl -> sw_a C = 0 -> sw_b C <> 0 -> (15 * 8 ^ Z.of_nat (windows (S:=S) - 2) <= Z.of_N (pf_mod S))%Z -> incl (v_cs tf) cs -> satisfies w cs ->
    forall sts (t t' : VState V) bs, step_levels E true enc sl t sts = Some (t', bs) -> grows t' tf -> Forall2 (says w tf sl) sts bs.
  Proof.
    intros Hsl H0 Hb Hq Hi Hs. induction sts as [|st sts IH]; intros t t' bs H Hg; cbn [step_levels] in H; [apply Some_inj, pair_inj in H as [_ <-]; constructor|].
    destruct (step_level E true enc sl t st) as [[t1 b]|] eqn:E1; [|discriminate]. cbn [opt_bind fst snd] in H. destruct (step_levels E true enc sl t1 sts) as [[t2 bs']|] eqn:E2; [|discriminate]. cbn [opt_bind fst snd] in H.
    apply Some_inj, pair_inj in H as [<- <-]. constructor; [|eapply IH; eassumption].
    assert (Hg1 : grows t1 tf) by (eapply grows_trans; [eapply steps_grow; exact E2|exact Hg]).
    eapply step_says; try eassumption. eapply incl_tran; [apply Hg1|exact Hi].
  Qed.
End Facts.

(** ** One level of the tree *)
Section OneLevel.
  Context {F0 F1 : PField} {P0 : SWCurve F1 F0} {P1 : SWCurve F0 F1}.
  Add Field FF0tied : (f_th F0).
  Add Field FF1tied : (f_th F1).

  Lemma two_neq_0 : (2 < pf_mod F0)%N -> (1 : F0) - - (1) <> 0.
  Proof.
    intros Hq H. assert (E : (fN 2 : F0) = fN 0). { change (fN 0 : F0) with (0 : F0). rewrite <- H. change (fN 2 : F0) with ((1 : F0) + 1). ring. }
    apply (f_equal pf_repr) in E. rewrite !pf_repr_of, N.mod_small, N.mod_0_l in E by lia. discriminate E.
  Qed.
  Lemma zipw_sub_zero (e : F0) : forall ys xs : list F0, length ys = length xs -> ~ Exists (fun x => x <> 0) (zipw fsub ys (map (fmul e) xs)) -> ys = map (fmul e) xs.
  Proof.
    induction ys as [|y ys IH]; intros [|x xs] Hl H; try discriminate Hl; [reflexivity|]. cbn [map zipw combine] in *. f_equal.
    - destruct (feqb (y - e * x) 0) eqn:E; [apply feqb_true in E|]; [|exfalso; apply H; constructor; intros E'; rewrite E', (proj2 (feqb_true (0 : F0) 0) eq_refl) in E; discriminate].
      replace y with (y - e * x + e * x) by ring. rewrite E. ring.
    - apply IH; [cbn in Hl; lia|]. intros H'. apply H. constructor 2. exact H'.
  Qed.
  Lemma exists_nz_dec (l : list F0) : Exists (fun x => x <> 0) l \/ ~ Exists (fun x => x <> 0) l.
  Proof.
    induction l as [|x l [IH|IH]]; [right; intros H; inversion H|left; constructor 2; exact IH|]. destruct (feqb x 0) eqn:E.
    - apply feqb_true in E. right. intros H. inversion H; subst; contradiction.
    - left. constructor. intros ->. rewrite (proj2 (feqb_true (0 : F0) 0) eq_refl) in E. discriminate.
  Qed.
  Lemma msm_sub (e : F0) (G : list P0) : forall ys xs, length ys = length xs -> msm (zipw fsub ys (map (fmul e) xs)) G = vsub (msm ys G) (vsmul e (msm xs G)).
  Proof.
    induction G as [|g G IH]; intros ys xs Hl. { rewrite !msm_nil_r. vring. }
    destruct ys as [|y ys], xs as [|x xs]; try discriminate Hl; [cbn; vring|]. cbn [map].
    change (vadd (vsmul (y - e * x) g) (msm (zipw fsub ys (map (fmul e) xs)) G) = vsub (vadd (vsmul y g) (msm ys G)) (vsmul e (vadd (vsmul x g) (msm xs G)))).
    rewrite IH by (cbn in Hl; lia). vring.
  Qed.
  (** Two openings of a re-randomized node agree, or there is a relation. *)
  Lemma opening_unique (prm : SLParams P0) xs ys c R s r e : (2 < pf_mod F0)%N -> plain_commitment prm 0 xs c -> rerandomizes prm c R e r ->
    R = vec_commitment (sl_pc prm) (sl_bp prm) s ys -> length ys = length xs -> clash prm xs ys s r e \/ (ys = xs /\ s = r /\ e = 1).
  Proof.
    intros Hq (G & HG & Hl & Hc) [He HR] Ho Hlen. set (h := pcB_blinding (sl_pc prm)) in *. set (D := sl_delta prm) in *.
    unfold vec_commitment in Ho. fold h in Ho. rewrite (nth_error_nth _ _ _ HG) in Ho. unfold slice in Hc. cbn [Nat.mul skipn] in Hc. rewrite msm_firstn_r in Hc by lia.
    assert (Hz : msm ((s - r) :: (1 - e) :: zipw fsub ys (map (fmul e) xs)) (h :: D :: G) = v0).
    { change (vadd (vsmul (s - r) h) (vadd (vsmul (1 - e) D) (msm (zipw fsub ys (map (fmul e) xs)) G)) = v0). rewrite msm_sub by exact Hlen. subst R c.
      assert (K : vsub (vadd (vadd (vsmul s h) (msm ys G)) D) (vadd (vsmul e (vadd (msm xs G) D)) (vsmul r h)) = v0) by (rewrite HR; vring). rewrite <- K. vring. }
    destruct (exists_nz_dec ((s - r) :: (1 - e) :: zipw fsub ys (map (fmul e) xs))) as [Hnz|Hnz].
    - left. unfold clash. cbv zeta. fold h D. rewrite (nth_error_nth _ _ _ HG). split; assumption.
    - right. destruct He as [->| ->].
      + split; [|split; [|reflexivity]].
        * rewrite (zipw_sub_zero 1 ys xs Hlen). { rewrite <- (map_id xs) at 2. apply map_ext. intros x. ring. } intros H'. apply Hnz. constructor 2. constructor 2. exact H'.
        * destruct (feqb (s - r) 0) eqn:E; [apply feqb_true in E; replace s with (s - r + r) by ring; rewrite E; ring|]. exfalso. apply Hnz. constructor. intros E'. rewrite E', (proj2 (feqb_true (0 : F0) 0) eq_refl) in E. discriminate E.
      + exfalso. apply Hnz. constructor 2. constructor. apply two_neq_0, Hq.
  Qed.

  (** The child with the selected x-coordinate. *)
  Lemma selected_child (prm1 : SLParams P1) (cs : list (option (Node P1 P0))) xs (P ch : P1) x y r : (forall y : F0, y * y <> sw_b P1) -> sw_a P1 = 0 ->
    Forall2 (slot_value (sl_delta prm1) 0) cs xs -> coords P = Some (x, y) -> In x xs -> vadd ch (sl_delta prm1) = vadd P (vsmul r (pcB_blinding (sl_pc prm1))) ->
    exists c Q e, In (Some c) cs /\ n_commitment c 0 = Some Q /\ rerandomizes prm1 Q ch e r.
  Proof.
    intros Hb H0 H2 HP Hin HR. assert (Hx : x <> 0). { intros ->. exact (no_zero_x P y H0 Hb HP). }
    induction H2 as [|o v cs xs Hs _ IH]; [contradiction|]. destruct Hin as [->|Hin].
    - destruct o as [c|]; [|exfalso; apply Hx; exact Hs]. destruct Hs as (Q & HQ & Hv). destruct (coords (vadd Q (sl_delta prm1))) as [[x' y']|] eqn:Ec; [|contradiction]. cbn [fst] in Hv. subst x'.
      destruct (same_x _ _ _ _ _ Ec HP) as [EP|EP]; subst P.
      + exists c, Q, 1. split; [left; reflexivity|]. split; [exact HQ|]. split; [left; reflexivity|]. rewrite HR. vring.
      + exists c, Q, (- (1)). split; [left; reflexivity|]. split; [exact HQ|]. split; [right; reflexivity|]. rewrite HR. vring.
    - destruct (IH Hin) as (c & Q & e & Hc & K). exists c, Q, e. split; [right; exact Hc|exact K].
  Qed.
End OneLevel.

(** A relation found at one of the vector commitments of a curve: [w], [bl] open it, the
    digits [bits] (of the circuit on the other curve, under [w']) re-randomize it, and
    [vals] are the values of the nodes (no code modelled). *)
Definition broken {F0 F1 : PField} {P0 : SWCurve F1 F0} (L : nat) (prm0 : SLParams P0) (w : Var -> F0) (bl : nat -> F0) (t : VState P0) (w' : Var -> F1) (bits : list (list (Var * Var * Var))) (vals : list F0 -> Prop) : Prop :=
  exists k R xs b e, nth_error (v_vec t) k = Some (R, L) /\ vals xs /\ In b bits /\ (e = 1 \/ e = - (1)) /\ clash prm0 xs (vec_values w k L) (bl k) (scalar_of w' b) e.

Section Tree.
  Context {F0 F1 : PField} {P0 : SWCurve F1 F0} {P1 : SWCurve F0 F1}.
  (* vocabulary of specifications and proofs, no code modelled *)
  Definition within (L M d : nat) (prm0 : SLParams P0) (prm1 : SLParams P1) (leaves : P0 + P1 -> Prop) (vals : list F0 + list F1 -> Prop) (n : Node P0 P1) : Prop :=
    well_committed L M d prm0 prm1 n /\ (exists l, holds L d n l /\ Forall leaves l) /\ forall xs, values_in d (sl_delta prm0) (sl_delta prm1) n xs -> vals xs.
  (* vocabulary of specifications and proofs, no code modelled *)
  Definition shown (prm0 : SLParams P0) (w' : Var -> F1) (bits : list (list (Var * Var * Var))) (n : Node P0 P1) (R : P0) : Prop :=
    exists c e b, n_commitment n 0 = Some c /\ In b bits /\ rerandomizes prm0 c R e (scalar_of w' b).
End Tree.
Section Tree2.
  Context {F0 F1 : PField} {P0 : SWCurve F1 F0} {P1 : SWCurve F0 F1}.
  Lemma swap_twice {A B} (x : A + B) : swap_sum (swap_sum x) = x. Proof. destruct x; reflexivity. Qed.
  Lemma in_slice {A} k i (l : list A) x : In x (slice k i l) -> In x l.
  Proof. unfold slice. intros H. rewrite <- (firstn_skipn (i * k) l). apply in_app_iff. right. rewrite <- (firstn_skipn k (skipn (i * k) l)). apply in_app_iff. left. exact H. Qed.
  Lemma within_child L M d (prm0 : SLParams P0) (prm1 : SLParams P1) leaves vals cm (cs : list (option (Node P1 P0))) h e c : within L M (S d) prm0 prm1 leaves vals (Branch cm cs h e) -> In (Some c) cs ->
    within (P0 := P1) (P1 := P0) L M d prm1 prm0 (fun x => leaves (swap_sum x)) (fun x => vals (swap_sum x)) c.
  Proof.
    intros (Hw & (l & Hl & Ha) & Hv) Hc. split; [apply Hw, Hc|]. split.
    - destruct Hl as (_ & _ & _ & children & -> & _ & _ & Hch). apply in_children in Hc. apply In_nth_error in Hc as (i & Hi). exists (map swap_sum (slice (L ^ d) i l)). split; [apply Hch, Hi|].
      rewrite Forall_forall in *. intros x Hx. apply in_map_iff in Hx as (y & <- & Hy). rewrite swap_twice. apply Ha. eapply in_slice; exact Hy.
    - intros xs Hxs. apply Hv. cbn [values_in]. right. exists c. split; [exact Hc|]. rewrite swap_twice. exact Hxs.
  Qed.

  Lemma level_step L M d (prm0 : SLParams P0) (prm1 : SLParams P1) leaves vals n R ch w0 (w1 : Var -> F1) bl0 t0' bits0 bits1 b0 :
    (2 < pf_mod F0)%N -> (0 < M)%nat -> sw_a P1 = 0 -> (forall y : F0, y * y <> sw_b P1) ->
    within L M (S d) prm0 prm1 leaves vals n -> shown prm0 w1 bits1 n R -> all_opened (sl_pc prm0) (sl_bp prm0) w0 bl0 t0' ->
    says w0 t0' prm1 (inr (L, R), ch) b0 -> In b0 bits0 ->
    broken L prm0 w0 bl0 t0' w1 bits1 (fun xs => vals (inl xs)) \/
    exists c, within (P0 := P1) (P1 := P0) L M d prm1 prm0 (fun x => leaves (swap_sum x)) (fun x => vals (swap_sum x)) c /\ shown (P0 := P1) (P1 := P0) prm1 w0 bits0 c ch.
  Proof.
    intros Hq HM Ha Hb Hin (c & e & b & Hc & Hbi & Hr) Ho (ys & P & x & y & (k & Hk & ->) & HP & Hx & HR) Hb0.
    destruct n as [cm cs h el|c0]; [|destruct Hin as (Hw & _); contradiction].
    pose proof (proj1 Hin) as Hw. cbn [well_committed] in Hw. destruct Hw as (_ & _ & Hlen & Hcm & _). cbn [n_commitment] in Hc.
    destruct (Hcm _ _ Hc) as (xs & Hxs & Hpl). pose proof (Forall2_len _ _ _ Hxs) as Hxl.
    assert (Hv : vals (inl xs)). { apply Hin. cbn [values_in]. left. exists xs. auto. }
    destruct (opening_unique prm0 xs (vec_values w0 k L) c R (bl0 k) (scalar_of w1 b) e Hq Hpl Hr (Ho _ _ _ Hk)) as [Hcl|(Hey & _)].
    - unfold vec_values. rewrite map_length, seq_length. lia.
    - left. exists k, R, xs, b, e. split; [exact Hk|]. split; [exact Hv|]. split; [exact Hbi|]. split; [apply Hr|exact Hcl].
    - right. rewrite Hey in Hx. cbn [snd] in HR. destruct (selected_child prm1 cs xs P ch x y _ Hb Ha Hxs HP Hx HR) as (c' & Q & e' & Hc' & HQ & Hr').
      exists c'. split; [eapply within_child; eassumption|]. exists Q, e', b0. auto.
  Qed.
  (** The root: its children are public. *)
  Lemma root_step L M d (prm0 : SLParams P0) (prm1 : SLParams P1) leaves vals cm cs h el xs ch w0 t0' bits0 b0 : sw_a P1 = 0 -> (forall y : F0, y * y <> sw_b P1) ->
    within L M (S d) prm0 prm1 leaves vals (Branch cm cs h el) -> x_coordinates cs (sl_delta prm1) 0 = Some xs ->
    says (V := P0) w0 t0' prm1 (inl xs, ch) b0 -> In b0 bits0 ->
    exists c, within (P0 := P1) (P1 := P0) L M d prm1 prm0 (fun x => leaves (swap_sum x)) (fun x => vals (swap_sum x)) c /\ shown (P0 := P1) (P1 := P0) prm1 w0 bits0 c ch.
  Proof.
    intros Ha Hb Hin Hxs (ys & P & x & y & Hy & HP & Hx & HR) Hb0. cbn [fst src_values] in Hy. subst ys. apply x_coordinates_spec in Hxs. cbn [snd] in HR.
    destruct (selected_child prm1 cs xs P ch x y _ Hb Ha Hxs HP Hx HR) as (c' & Q & e' & Hc' & HQ & Hr'). exists c'. split; [eapply within_child; eassumption|]. exists Q, e', b0. auto.
  Qed.
End Tree2.

(** ** Alternating walks *)
Section Walk.
  Context {A B NA NB : Type} (l0 : list (A * B)) (l1 : list (B * A)) (I0 : nat -> NA -> Prop) (I1 : nat -> NB -> Prop) (S0 : NA -> A -> Prop) (S1 : NB -> B -> Prop) (Bad : Prop).
  (** From the point [R] down through the links of the two lists, alternately, to
      [fin] (no code modelled). *)
  Fixpoint linked (d : nat) (R : A + B) (k0 : list (A * B)) (k1 : list (B * A)) (fin : A) : Prop :=
    match d, R with
    | O, inl a => a = fin
    | O, inr _ => False
    | S d', inl a => match k0 with (c, ch) :: k0' => c = a /\ linked d' (inr ch) k0' k1 fin | [] => False end
    | S d', inr b => match k1 with (c, ch) :: k1' => c = b /\ linked d' (inl ch) k0 k1' fin | [] => False end
    end.
  Lemma walk_down : (forall d n R ch, I0 (S d) n -> S0 n R -> In (R, ch) l0 -> Bad \/ exists c, I1 d c /\ S1 c ch) -> (forall d n R ch, I1 (S d) n -> S1 n R -> In (R, ch) l1 -> Bad \/ exists c, I0 d c /\ S0 c ch) ->
    forall d R k0 k1 fin, incl k0 l0 -> incl k1 l1 -> linked d R k0 k1 fin ->
    (match R with inl a => exists n, I0 d n /\ S0 n a | inr b => exists n, I1 d n /\ S1 n b end) -> Bad \/ exists n, I0 0%nat n /\ S0 n fin.
  Proof.
    intros H0 H1. induction d as [|d IH]; intros R k0 k1 fin L0 L1 H HR; destruct R as [a|b]; cbn [linked] in H; try contradiction.
    - subst. right. exact HR.
    - destruct k0 as [|[c ch] k0]; [contradiction|]. destruct H as [-> H]. destruct HR as (n & Hi & Hs). destruct (H0 d n a ch Hi Hs) as [Hb|Hn]; [apply L0; left; reflexivity|left; exact Hb|].
      eapply IH; [|exact L1|exact H|exact Hn]. intros z Hz. apply L0. right. exact Hz.
    - destruct k1 as [|[c ch] k1]; [contradiction|]. destruct H as [-> H]. destruct HR as (n & Hi & Hs). destruct (H1 d n b ch Hi Hs) as [Hb|Hn]; [apply L1; left; reflexivity|left; exact Hb|].
      eapply IH; [exact L0| |exact H|exact Hn]. intros z Hz. apply L1. right. exact Hz.
  Qed.
End Walk.
Lemma linked_even {A B} (sel : A) : forall (pe : list A) (po : list B) a, length po = length pe -> linked (2 * length pe + 1) (inr a) (combine pe po) (combine (a :: po) (pe ++ [sel])) sel.
Proof.
  induction pe as [|b pe IH]; intros [|a' po] a Hl; try discriminate Hl; cbn [length app combine].
  - cbn. auto.
  - replace (2 * S (length pe) + 1)%nat with (S (S (2 * length pe + 1))) by lia. cbn [linked]. split; [reflexivity|]. split; [reflexivity|]. apply IH. cbn in Hl. lia.
Qed.
Lemma linked_odd {A B} (sel : A) : forall (pe : list A) (po : list B), length po = length pe -> linked (2 * length pe) (inl (hd sel pe)) (combine pe po) (combine po (tl (pe ++ [sel]))) sel.
Proof.
  intros [|b pe] [|a po] Hl; try discriminate Hl; [reflexivity|]. cbn [length hd app tl combine]. replace (2 * S (length pe))%nat with (S (2 * length pe + 1)) by lia. cbn [linked]. split; [reflexivity|]. apply linked_even. cbn in Hl. lia.
Qed.
