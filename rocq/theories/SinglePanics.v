(** * When the batched gadget's prover panics *)
From Verif Require Export SingleLevel.
From Verif Require Import CSProofs UtilProofs Lockstep CSMore.
Local Open Scope F_scope.

Section SP.
  Context {F : Field} {S : PField} {C : SWCurve F S} {V : VSpace F} (E : TrEnv V).
  Add Field FFsp : (f_th F).
  Implicit Types (sl : SLParams C).
  Lemma pret_alloc {A} o (k : Var -> Prog F A) Q : (forall v, pret E (k v) Q) -> pret E (palloc o k) Q.
  Proof.
    intros H s s' a Hp. unfold palloc in Hp. cbn [prun] in Hp. destruct (p_allocate s o) as [[s1 [v|e]]|]; try discriminate. eapply H; exact Hp.
  Qed.
  Lemma pret_ret {A} (a : A) (Q : A -> Prop) : Q a -> pret E (PRet a) Q.
  Proof. intros H s s' b Hp. cbn [prun] in Hp. congruence. Qed.
  Lemma checked_helper_finishes (xl yl xr yr : LC F) (P Q : C) :
    pret E (checked_helper (mkPRep xl yl (Some P)) (mkPRep xr yr (Some Q))) (fun o => pr_w o = Some (vadd P Q) /\ P <> v0 /\ Q <> v0 /\ Q <> P /\ Q <> vopp P).
  Proof.
    unfold checked_helper. cbn [pr_w pr_x pr_y]. destruct (coords P) as [[x1 y1]|] eqn:E1; [|apply pret_panic']. cbn [punwrap].
    destruct (coords Q) as [[x2 y2]|] eqn:E2; [|apply pret_panic']. cbn [punwrap].
    destruct (feqb x1 x2) eqn:Ex; [apply feqb_true in Ex; rewrite (fdiv_opt_none _ (x2 - x1)) by (rewrite Ex; ring); apply pret_panic'|]. apply feqb_false in Ex.
    rewrite fdiv_opt_some by (apply fsub_neq_0; congruence). rewrite fdiv_opt_some by (apply fsub_neq_0; congruence). cbn [punwrap].
    destruct (coords (vadd P Q)) as [[xo yo]|]; [|apply pret_panic']. cbn [punwrap].
    apply pret_alloc. intros xv. apply pret_alloc. intros yv. apply pret_bind'. intros []. apply pret_ret. cbn [pr_w]. split; [reflexivity|].
    split; [eapply coords_neq_0; exact E1|]. split; [eapply coords_neq_0; exact E2|].
    split; intros H; apply Ex; apply (x_eq_iff P Q x1 y1 x2 y2 E1 E2); [left|right]; exact H.
  Qed.
  Lemma batched_loop_finishes sl all : forall chunks i sum (A : C), pr_w sum = Some A ->
    pret E (batched_loop sl (Some all) i chunks sum) (fun sum' => exists Ps, firstn (length chunks) (skipn i all) = Ps /\ length Ps = length chunks /\
       (i = 0%nat -> A = v0 -> sums_apart true A Ps /\ pr_w sum' = Some (vadd A (psum Ps))) /\ (i <> 0%nat -> sums_apart false A Ps /\ pr_w sum' = Some (vadd A (psum Ps)))).
  Proof.
    induction chunks as [|chunk chunks IH]; intros i sum A Hw; cbn [batched_loop].
    - apply pret_ret. exists []. cbn [length firstn psum fold_right]. rewrite vadd_0_r. split; [reflexivity|]. split; [reflexivity|]. split; intros; (split; [exact I|assumption]).
    - destruct (nth_error all i) as [P|] eqn:En; cbn [option_map punwrap]; [|apply pret_panic'].
      assert (Hsk : skipn i all = P :: skipn (i + 1) all).
      { clear -En. revert all En. induction i as [|i IH]; intros [|x l] En; try discriminate; cbn in *; [congruence|]. rewrite (IH l En). rewrite Nat.add_1_r. reflexivity. }
      apply pret_alloc. intros xv. apply pret_alloc. intros yv. apply pret_bind'. intros []. apply pret_bind'. intros [].
      set (sel := mkPRep (lc_var xv) (lc_var yv) (Some P)).
      apply pret_bind with (R := fun sum1 => (i = 0%nat -> pr_w sum1 = Some P) /\ (i <> 0%nat -> pr_w sum1 = Some (vadd A P) /\ P <> A /\ P <> vopp A)).
      + destruct (Nat.eqb_spec i 0) as [Hz|Hnz].
        * apply pret_ret. split; [reflexivity|congruence].
        * destruct sum as [sx sy sw]. cbn [pr_w] in Hw. subst sw. intros s s' o Ho. destruct (checked_helper_finishes _ _ _ _ _ _ _ _ _ Ho) as (H1 & H2 & H3 & H4 & H5). split; [congruence|auto].
      + intros sum1 [H1 H2]. assert (H1' : exists B, pr_w sum1 = Some B /\ (i = 0%nat -> B = P) /\ (i <> 0%nat -> B = vadd A P)).
        { destruct (Nat.eq_dec i 0) as [Hz|Hnz]; [exists P; split; [auto|split; [auto|congruence]]|exists (vadd A P); split; [apply H2; exact Hnz|split; [congruence|auto]]]. }
        destruct H1' as (B & HB & B0 & B1). intros s s' sum' Hp. destruct (IH (i + 1)%nat sum1 B HB s s' sum' Hp) as (Ps & HPs & Hl & _ & Hap). destruct (Hap ltac:(lia)) as [Hap1 Hap2].
        rewrite Hsk. cbn [length firstn]. exists (P :: Ps). split; [f_equal; exact HPs|]. split; [cbn; lia|]. rewrite psum_cons, vadd_assoc. cbn [sums_apart]. split.
        * intros Hz HA. rewrite (B0 Hz) in *. rewrite HA, vadd_0_l. split; [split; [discriminate|exact Hap1]|exact Hap2].
        * intros Hnz. rewrite (B1 Hnz) in *. destruct (H2 Hnz) as (_ & N1 & N2). split; [split; [intros _; split; assumption|exact Hap1]|exact Hap2].
  Qed.
  Lemma batched_finishes tied A0 L chunks sl sum (Ps : list C) (r : S) : (0 < L)%nat -> chunks <> [] -> Forall (fun c => length c = L) chunks -> length Ps = length chunks -> sl_good sl ->
    pret E (single_level_batched_from tied A0 (length chunks) sl sum (concat chunks) (Some Ps) (Some r)) (fun _ => sums_apart true v0 Ps).
  Proof.
    intros HL Hne HF Hlen Hg. rewrite (batched_unfold tied A0 L) by assumption. cbn [option_map].
    eapply pret_bind; [apply (batched_loop_finishes sl Ps chunks 0 _ v0); reflexivity|].
    intros sum' (Ps' & HPs & Hl & H0 & _). rewrite <- Hlen in HPs. cbn [skipn] in HPs. rewrite firstn_all in HPs. subst Ps'. destruct (H0 eq_refl eq_refl) as [Hap _]. intros ? ? ? _. exact Hap.
  Qed.
  (** the single-level prover needs a finite child, and re-randomizations that are not exceptional *)
  Lemma single_finishes tied A0 enc sl R children (P : C) (r : S) : sl_good sl -> let h := pcB_blinding (sl_pc sl) in
    pret E (single_level_from tied A0 enc sl R children (Some P) (Some r)) (fun _ => P <> v0 /\ vadd A0 (vsmul r h) <> P /\ vadd A0 (vsmul r h) <> vopp P /\ 
      (forall i, (1 < i <= windows (S:=S))%nat -> win_pt h (windows (S:=S)) i (digits_of r i) <> acc_pt h (windows (S:=S)) A0 (digits_of r) (i - 1) /\ win_pt h (windows (S:=S)) i (digits_of r i) <> vopp (acc_pt h (windows (S:=S)) A0 (digits_of r) (i - 1)))).
  Proof.
    intros Hg h. unfold single_level_from. intros s s' bits Hp. cbn [prun] in Hp. revert Hp.
    match goal with |- prun E ?p ?s0 = _ -> _ => cut (pret E p (fun _ => P <> v0 /\ vadd A0 (vsmul r h) <> P /\ vadd A0 (vsmul r h) <> vopp P /\ 
      (forall i, (1 < i <= windows (S:=S))%nat -> win_pt h (windows (S:=S)) i (digits_of r i) <> acc_pt h (windows (S:=S)) A0 (digits_of r) (i - 1) /\ win_pt h (windows (S:=S)) i (digits_of r i) <> vopp (acc_pt h (windows (S:=S)) A0 (digits_of r) (i - 1))))) end.
    { intros H Hp. exact (H _ _ _ Hp). }
    apply pret_alloc. intros xv. apply pret_bind'. intros []. apply pret_alloc. intros yv. apply pret_bind'. intros [].
    intros s1 s2 b Hr. destruct (rerand_finishes E h (sl_tables sl) tied A0 r _ _ P _ _ (proj2 (proj2 Hg)) _ _ _ Hr) as (H1 & H2 & H3 & H4). auto.
  Qed.
End SP.
