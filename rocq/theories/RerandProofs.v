(** * Soundness and completeness of re_randomize *)
From Verif Require Export RerandTables GadgetProofs.
From Verif Require Import UtilProofs CSProofs.
From Coq Require Import Lia.
Local Open Scope F_scope.

Lemma pair_inj {A B} (a c : A) (b d : B) : (a, b) = (c, d) -> a = c /\ b = d.
Proof. intros H. split; congruence. Qed.

Section Div.
  Context {F : Field}.
  Add Field FFd : (f_th F).
  Lemma fdiv_opt_some (x y : F) : y <> 0 -> fdiv_opt x y = Some (x * finv y).
  Proof. intros H. unfold fdiv_opt, finv_opt. apply feqb_false in H. rewrite H. reflexivity. Qed.
  Lemma fdiv_opt_none (x y : F) : y = 0 -> fdiv_opt x y = None.
  Proof. intros ->. unfold fdiv_opt, finv_opt. rewrite feqb_refl. reflexivity. Qed.
End Div.

Section RR.
  Context {F : Field} {S : PField} {C : SWCurve F S}.
  Add Field FFrr : (f_th F).
  Add Field FSrr : (f_th S).
  Implicit Types (ok : Var -> Prop) (h acc : C).
  Notation SS := Datatypes.S.

  (** ** one iteration *)
  Lemma iter_complete {A} (w : Var -> F) (w1 : w One = 1) tied m r0 r1 i wit d x y ax ay (next : Var * Var * Var -> Var -> Var -> Prog F A) Q ok :
    ok One -> rw_index wit = Some d -> (d < 8)%nat -> rw_x wit = Some x -> rw_y wit = Some y ->
    ((1 < i)%nat -> lc_ok ok ax /\ lc_ok ok ay /\ exists dl, rw_delta wit = Some dl /\ add_eqs (lc_val w ax) (lc_val w ay) (row_at r0 d) (row_at r1 d) x y dl) ->
    ((1 < i)%nat -> i = m -> exists iv, rw_inv wit = Some iv /\ (lc_val w ax - row_at r0 d) * iv = 1) ->
    ((i <= 1)%nat -> tied = true -> x = row_at r0 d /\ y = row_at r1 d) ->
    (forall ok' bs xv yv, ok_sub ok ok' -> bits_are w bs d -> ok' xv -> ok' yv -> w xv = x -> w yv = y -> wpc w ok' (next bs xv yv) Q) ->
    wpc w ok (rerand_iter tied m [r0; r1] i wit ax ay next) Q.
  Proof.
    intros H1 Hd Hd8 Hx Hy Hadd Hinv Htied Hn. unfold rerand_iter. apply wpc_bind. rewrite Hd. apply lookup_bits_complete; auto.
    intros ok' bs rs Hs Hrs Hbs Hv. cbn [map] in Hv. destruct rs as [|xt [|yt [|? ?]]]; try discriminate. cbn [map] in Hv.
    pose proof (f_equal (hd 0) Hv : lc_val w xt = row_at r0 d) as Hxt. pose proof (f_equal (fun l => hd 0 (tl l)) Hv : lc_val w yt = row_at r1 d) as Hyt.
    rewrite !Forall_cons_iff in Hrs. destruct Hrs as (Ox & Oy & _). unfold palloc. rewrite Hx. cbn [wpc]. intros xv Hxv. rewrite Hy. cbn [wpc]. intros yv Hyv.
    set (ok2 := ok_add (ok_add ok' xv) yv). assert (S2 : ok_sub ok' ok2) by (do 2 apply ok_sub_add; apply ok_sub_refl).
    assert (I1 : ok2 xv) by (left; right; reflexivity). assert (I2 : ok2 yv) by (right; reflexivity).
    assert (S3 : ok_sub ok ok2) by (eapply ok_sub_trans; eassumption).
    assert (O3 : lc_ok ok2 xt) by exact (lc_ok_sub _ _ _ S2 Ox). assert (O4 : lc_ok ok2 yt) by exact (lc_ok_sub _ _ _ S2 Oy).
    assert (Onext : forall ok3, ok_sub ok2 ok3 -> wpc w ok3 (next bs xv yv) Q) by (intros ok3 H3; apply Hn; auto; eapply ok_sub_trans; eassumption).
    destruct (Nat.ltb_spec 1 i) as [Hi|Hi].
    - destruct (Hadd Hi) as (Oax & Oay & dl & Hdl & Heq). 
      apply (lc_ok_sub _ _ _ S3) in Oax. apply (lc_ok_sub _ _ _ S3) in Oay.
      assert (Heq' : add_eqs (lc_val w ax) (lc_val w ay) (lc_val w xt) (lc_val w yt) (lc_val w (lc_var xv)) (lc_val w (lc_var yv)) dl) by (rewrite Hxt, Hyt, !lc_val_var, Hxv, Hyv; exact Heq).
      destruct (Nat.eqb_spec i m) as [Hm|Hm].
      + destruct (Hinv Hi Hm) as (iv & Hiv & Hone). apply wpc_bind. rewrite Hiv. eapply checked_complete; cbn [ca_xl ca_yl ca_xr ca_yr ca_xo ca_yo ca_delta];
          try exact Hdl; try exact Heq'; auto; try (apply lc_ok_var; assumption). rewrite Hxt. exact Hone.
      + apply wpc_bind. eapply incomplete_complete; cbn [ca_xl ca_yl ca_xr ca_yr ca_xo ca_yo ca_delta];
          try exact Hdl; try exact Heq'; auto; try (apply lc_ok_var; assumption).
    - destruct tied; [|apply Onext, ok_sub_refl]. destruct (Htied Hi eq_refl) as [E1 E2]. cbn [wpc].
      split; [apply lc_ok_sub_lc; [assumption|apply lc_ok_var; exact I1]|]. split; [lcv; rewrite Hxt, Hxv, E1; ring|].
      split; [apply lc_ok_sub_lc; [assumption|apply lc_ok_var; exact I2]|]. split; [lcv; rewrite Hyt, Hyv, E2; ring|].
      apply Onext, ok_sub_refl.
  Qed.
  Lemma iter_sound {A} (w : Var -> F) (w1 : w One = 1) tied m r0 r1 i wit ax ay (next : Var * Var * Var -> Var -> Var -> Prog F A) Q :
    (forall bs xv yv d, (d < 8)%nat -> bits_are w bs d ->
       ((1 < i)%nat -> (i = m -> lc_val w ax <> row_at r0 d) /\ exists dl, add_eqs (lc_val w ax) (lc_val w ay) (row_at r0 d) (row_at r1 d) (w xv) (w yv) dl) ->
       ((i <= 1)%nat -> tied = true -> w xv = row_at r0 d /\ w yv = row_at r1 d) ->
       wps w (next bs xv yv) Q) ->
    wps w (rerand_iter tied m [r0; r1] i wit ax ay next) Q.
  Proof.
    intros Hn. unfold rerand_iter. apply wps_bind. eapply wps_mono; [|apply lookup_bits_sound; exact w1]. intros res (bs & rs & d & -> & Hd & Hbs & Hv).
    cbn [map] in Hv. destruct rs as [|xt [|yt [|? ?]]]; try exact I. cbn [map] in Hv.
    pose proof (f_equal (hd 0) Hv : lc_val w xt = row_at r0 d) as Hxt. pose proof (f_equal (fun l => hd 0 (tl l)) Hv : lc_val w yt = row_at r1 d) as Hyt.
    unfold palloc. cbn [wps]. intros xv yv. destruct (Nat.ltb_spec 1 i) as [Hi|Hi].
    - destruct (Nat.eqb_spec i m) as [Hm|Hm]; apply wps_bind.
      + eapply wps_mono; [|apply checked_sound; exact w1]. cbn [ca_xl ca_yl ca_xr ca_yr ca_xo ca_yo]. rewrite Hxt, Hyt, !lc_val_var. intros [] [Hne Hdl].
        apply (Hn bs xv yv d Hd Hbs); [|lia]. intros _. auto.
      + eapply wps_mono; [|apply incomplete_sound]. cbn [ca_xl ca_yl ca_xr ca_yr ca_xo ca_yo]. rewrite Hxt, Hyt, !lc_val_var. intros [] Hdl.
        apply (Hn bs xv yv d Hd Hbs); [|lia]. intros _. split; [contradiction|exact Hdl].
    - destruct tied; cbn [wps].
      + intros C1 C2. lcv_in C1. lcv_in C2. apply (proj1 (fsub_0_iff _ _)) in C1. apply (proj1 (fsub_0_iff _ _)) in C2. apply (Hn bs xv yv d Hd Hbs); [lia|].
        intros _ _. rewrite <- Hxt, <- Hyt. auto.
      + apply (Hn bs xv yv d Hd Hbs); [lia|discriminate].
  Qed.
  (** witness present on the prover's side *)
  Definition wit_full (i m : nat) (wit : RWit (F:=F)) : Prop :=
    (exists d, rw_index wit = Some d) /\ rw_x wit <> None /\ rw_y wit <> None /\ ((1 < i)%nat -> rw_delta wit <> None) /\ (i = m -> rw_inv wit <> None).
  Lemma iter_same {A B} (R : A -> B -> Prop) tied m table i wit wit' ax ay (next : Var * Var * Var -> Var -> Var -> Prog F A) next' :
    wit_full i m wit -> rw_index wit' = None -> (forall bs xv yv, simg R (next bs xv yv) (next' bs xv yv)) ->
    simg R (rerand_iter tied m table i wit ax ay next) (rerand_iter tied m table i wit' ax ay next').
  Proof.
    intros ([d Hd] & Hx & Hy & Hdl & Hiv) Hnone Hn. unfold rerand_iter. rewrite Hd, Hnone. eapply simg_bind; [apply lookup_bits_same|]. intros res res' ->.
    destruct res' as [[bs [|xt [|yt [|? ?]]]]|]; try constructor. unfold palloc. destruct (rw_x wit) as [x|]; [|congruence]. constructor. intros xv.
    destruct (rw_y wit) as [y|]; [|congruence]. constructor. intros yv. destruct (Nat.ltb_spec 1 i) as [Hi|Hi].
    - destruct (Nat.eqb_spec i m) as [Hm|Hm]; eapply simg_bind.
      + apply checked_same; [repeat split|cbn; auto|auto].
      + intros ? ? _. apply Hn.
      + apply incomplete_same; [repeat split|cbn; auto].
      + intros ? ? _. apply Hn.
    - destruct tied; [constructor; constructor; apply Hn|apply Hn].
  Qed.

  (** ** the witness of one iteration *)
  Section Witness.
    Variables (h : C) (m : nat).
    (** the point of window [i] for digit [j] *)
    Definition win_pt (i j : nat) : C := vsmul (fZ (win_int m i j)) h.
    Lemma witness_some r0 r1 r i acc : good_table h m i [r0; r1] -> (1 <= i)%nat ->
      let d := window_index (modulus_bits S) r i in
      let acc' := vadd acc (win_pt i d) in
      ((1 < i)%nat -> acc <> v0 /\ win_pt i d <> acc /\ win_pt i d <> vopp acc) -> acc' <> v0 -> (i = 1%nat -> m <> 1%nat) ->
      exists wit x y, rerand_witness m [r0; r1] (Some r) i acc = Some (wit, acc') /\ coords acc' = Some (x, y) /\
        rw_index wit = Some d /\ rw_x wit = Some x /\ rw_y wit = Some y /\ wit_full i m wit /\
        ((1 < i)%nat -> exists xl yl dl, coords acc = Some (xl, yl) /\ xl <> row_at r0 d /\ rw_delta wit = Some dl /\ add_eqs xl yl (row_at r0 d) (row_at r1 d) x y dl /\
           (i = m -> exists iv, rw_inv wit = Some iv /\ (xl - row_at r0 d) * iv = 1)).
    Proof.
      intros (r0' & r1' & Heq & Hg) Hi d acc' Hcol Hacc' Hm1. injection Heq as <- <-.
      assert (Hd : (d < 8)%nat) by apply window_index_lt. specialize (Hg d Hd). fold (win_pt i d) in Hg.
      destruct (coords_some _ Hacc') as (x & y & Hxy). unfold rerand_witness. fold d. cbn [nth].
      assert (Hof : of_coords (row_at r0 d) (row_at r1 d) = Some (win_pt i d)) by (apply of_coords_spec; exact Hg).
      rewrite Hof. destruct (Nat.eqb_spec i 1) as [H1|H1].
      - cbn [opt_bind]. destruct (Nat.eqb_spec i m) as [Hm|Hm]; [exfalso; apply (Hm1 H1); lia|]. cbn [opt_bind]. fold acc'. rewrite Hxy. cbn [opt_bind fst snd].
        eexists _, x, y. split; [reflexivity|]. split; [reflexivity|]. cbn [rw_index rw_x rw_y rw_delta rw_inv]. split; [reflexivity|]. split; [reflexivity|]. split; [reflexivity|].
        split; [|lia]. unfold wit_full. cbn [rw_index rw_x rw_y rw_delta rw_inv]. split; [eauto|]. split; [discriminate|]. split; [discriminate|]. split; [lia|intros; contradiction].
      - destruct (Hcol ltac:(lia)) as (Ha0 & Hne & Hno). destruct (coords_some _ Ha0) as (xl & yl & Hl). rewrite Hl. cbn [opt_bind].
        assert (Hx : xl <> row_at r0 d) by (eapply diff_x; [exact Hl|exact Hg|exact Hne|exact Hno]).
        assert (N1 : row_at r0 d - xl <> 0) by (apply fsub_neq_0; congruence). assert (N2 : xl - row_at r0 d <> 0) by (apply fsub_neq_0; congruence).
        rewrite (fdiv_opt_some _ _ N1). cbn [option_map opt_bind].
        pose proof (chord_eqs acc (win_pt i d) xl yl _ _ x y Hl Hg Hx Hxy) as Hadd. cbv zeta in Hadd.
        destruct (Nat.eqb_spec i m) as [Hm|Hm].
        + rewrite (fdiv_opt_some _ _ N2). cbn [option_map opt_bind]. fold acc'. rewrite Hxy. cbn [opt_bind fst snd].
          eexists _, x, y. split; [reflexivity|]. split; [reflexivity|]. unfold wit_full. cbn [rw_index rw_x rw_y rw_delta rw_inv]. split; [reflexivity|]. split; [reflexivity|]. split; [reflexivity|].
          split; [split; [eauto|]; split; [discriminate|]; split; [discriminate|]; split; [discriminate|discriminate]|].
          intros _. exists xl, yl, ((row_at r1 d - yl) * finv (row_at r0 d - xl)). split; [reflexivity|]. split; [exact Hx|]. split; [reflexivity|]. split; [exact Hadd|].
          intros _. eexists. split; [reflexivity|]. field. exact N2.
        + cbn [opt_bind]. fold acc'. rewrite Hxy. cbn [opt_bind fst snd].
          eexists _, x, y. split; [reflexivity|]. split; [reflexivity|]. unfold wit_full. cbn [rw_index rw_x rw_y rw_delta rw_inv]. split; [reflexivity|]. split; [reflexivity|]. split; [reflexivity|].
          split; [split; [eauto|]; split; [discriminate|]; split; [discriminate|]; split; [discriminate|intros; contradiction]|].
          intros _. exists xl, yl, ((row_at r1 d - yl) * finv (row_at r0 d - xl)). split; [reflexivity|]. split; [exact Hx|]. split; [reflexivity|]. split; [exact Hadd|]. intros; contradiction.
    Qed.
    Lemma witness_none r0 r1 r i acc : good_table h m i [r0; r1] -> (1 < i)%nat ->
      let d := window_index (modulus_bits S) r i in
      win_pt i d = acc \/ win_pt i d = vopp acc -> rerand_witness m [r0; r1] (Some r) i acc = None.
    Proof.
      intros (r0' & r1' & Heq & Hg) Hi d Hcol. injection Heq as <- <-.
      assert (Hd : (d < 8)%nat) by apply window_index_lt. specialize (Hg d Hd). fold (win_pt i d) in Hg.
      unfold rerand_witness. fold d. cbn [nth]. destruct (Nat.eqb_spec i 1) as [H1|H1]; [lia|].
      destruct (coords acc) as [[xl yl]|] eqn:Hl; [|reflexivity]. cbn [opt_bind].
      assert (Hx : xl = row_at r0 d) by (apply (x_eq_iff acc (win_pt i d) _ _ _ _ Hl Hg); exact Hcol).
      rewrite fdiv_opt_none by (rewrite Hx; ring). reflexivity.
    Qed.
    Lemma witness_acc0 r0 r1 r i : (1 < i)%nat -> rerand_witness m [r0; r1] (Some r) i (v0 : C) = None.
    Proof. intros Hi. unfold rerand_witness. destruct (Nat.eqb_spec i 1) as [H1|H1]; [lia|]. rewrite coords_v0. reflexivity. Qed.
  End Witness.

  (** ** the loop, started from the accumulator [A0] ([v0] in the code) *)
  Definition acc_pt (h : C) (m : nat) (A0 : C) (d : nat -> nat) (i : nat) : C := vadd A0 (vsmul (fZ (acc_int m d i)) h).
  Lemma acc_pt_step h m A0 d i : (1 <= i)%nat -> vadd (acc_pt h m A0 d (i - 1)) (win_pt h m i (d i)) = acc_pt h m A0 d i.
  Proof.
    intros Hi. unfold acc_pt, win_pt. destruct i as [|i]; [lia|]. replace (SS i - 1)%nat with i by lia. cbn [acc_int]. rewrite fZ_add, vsmul_add_l, vadd_assoc. reflexivity.
  Qed.
  (** no exceptional case on the way *)
  Definition smooth (h : C) (m : nat) (A0 : C) (d : nat -> nat) : Prop :=
    acc_pt h m A0 d 1 <> v0 /\
    forall i, (1 < i <= m)%nat -> win_pt h m i (d i) <> acc_pt h m A0 d (i - 1) /\ win_pt h m i (d i) <> vopp (acc_pt h m A0 d (i - 1)).
  Lemma opp_sum' (x y : C) : vadd x y = v0 -> y = vopp x.
  Proof. intros E. transitivity (vadd (vopp x) (vadd x y)); [vring|rewrite E; vring]. Qed.
  Lemma opp_sum (x y : C) : y <> vopp x -> vadd x y <> v0.
  Proof. intros H E. apply H. apply opp_sum'. exact E. Qed.
  Lemma smooth_acc h m A0 d i : smooth h m A0 d -> (1 <= i <= m)%nat -> acc_pt h m A0 d i <> v0.
  Proof.
    intros [H1 H2] Hi. destruct (Nat.eq_dec i 1) as [->|Hne]; [exact H1|]. rewrite <- acc_pt_step by lia. apply opp_sum. apply H2. lia.
  Qed.

  Section Loop.
    Variables (h : C) (m : nat) (tables : list (list (list F))) (r : N) (A0 : C) (tied : bool).
    Hypothesis Hlen : length tables = m.
    Hypothesis Htab : forall i, (1 <= i <= m)%nat -> good_table h m i (nth (i - 1) tables []).
    Hypothesis Hm : (2 <= m)%nat.
    Hypothesis Htied : tied = true -> A0 = v0.
    Let d := window_index (modulus_bits S) r.

    Lemma nth_table i : (1 <= i <= m)%nat -> exists r0 r1, nth_error tables (i - 1) = Some [r0; r1] /\ good_table h m i [r0; r1].
    Proof.
      intros Hi. pose proof (Htab i Hi) as Hg. pose proof Hg as (r0 & r1 & E & _). exists r0, r1. rewrite <- E. split; [|exact Hg]. apply nth_error_nth'. clear Hm. lia.
    Qed.
    Lemma loop_complete w : smooth h m A0 d -> w One = 1 -> forall k i ok ax ay bits (Q : _ -> _ -> Prop), ok One -> (1 <= i)%nat -> (i + k = SS m)%nat ->
      ((1 < i)%nat -> lc_ok ok ax /\ lc_ok ok ay /\ coords (acc_pt h m A0 d (i - 1)) = Some (lc_val w ax, lc_val w ay)) ->
      Forall2 (bits_are w) bits (map d (seq 1 (i - 1))) ->
      (forall ok' ax' ay' bits', ok_sub ok ok' -> lc_ok ok' ax' -> lc_ok ok' ay' -> coords (acc_pt h m A0 d m) = Some (lc_val w ax', lc_val w ay') ->
         Forall2 (bits_are w) bits' (map d (seq 1 m)) -> Q ok' (acc_pt h m A0 d m, ax', ay', bits')) ->
      wpc w ok (rerand_loop tied m tables (Some r) k i (acc_pt h m A0 d (i - 1)) ax ay bits) Q.
    Proof.
      intros Hsm w1. induction k as [|k IH]; intros i ok ax ay bits Q H1 Hi Hk Hax Hb HQ; cbn [rerand_loop].
      - assert (i = SS m) by lia. subst i. destruct (Hax ltac:(lia)) as (O1 & O2 & Hc). replace (SS m - 1)%nat with m in * by lia. apply HQ; auto using ok_sub_refl.
      - destruct (nth_table i ltac:(lia)) as (r0 & r1 & Hnt & Hgt). rewrite Hnt. cbn [punwrap].
        destruct (witness_some h m r0 r1 r i (acc_pt h m A0 d (i - 1)) Hgt Hi) as (wit & x & y & HW & Hxy & Hidx & Hx & Hy & Hfull & Hstep).
        { intros H. destruct (proj2 Hsm i ltac:(lia)) as [N1 N2]. split; [|split; [exact N1|exact N2]]. apply smooth_acc; [exact Hsm|lia]. }
        { fold d. rewrite acc_pt_step by lia. apply smooth_acc; [exact Hsm|lia]. }
        { lia. }
        fold d in HW, Hxy, Hstep, Hidx. rewrite acc_pt_step in HW, Hxy by lia. rewrite HW. cbn [punwrap].
        apply iter_complete with (d := d i) (x := x) (y := y); auto.
        + apply window_index_lt.
        + intros H. destruct (Hax H) as (O1 & O2 & Hc). split; [exact O1|]. split; [exact O2|]. destruct (Hstep H) as (xl & yl & dl & Hl & _ & Hdl & Hadd & _).
          rewrite Hc in Hl. apply Some_inj, pair_inj in Hl as [<- <-]. eauto.
        + intros H Him. destruct (Hax H) as (O1 & O2 & Hc). destruct (Hstep H) as (xl & yl & dl & Hl & _ & _ & _ & Hinv).
          rewrite Hc in Hl. apply Some_inj, pair_inj in Hl as [<- <-]. auto.
        + intros Hle Ht. assert (i = 1%nat) by lia. subst i. rewrite (Htied Ht) in Hxy. destruct Hgt as (r0' & r1' & Heq & Hg). injection Heq as <- <-.
          specialize (Hg (d 1%nat) (window_index_lt _ _ _)). unfold acc_pt in Hxy. cbn [acc_int] in Hxy. rewrite Z.add_0_l, vadd_0_l, Hg in Hxy. apply Some_inj, pair_inj in Hxy as [<- <-]. auto.
        + intros ok' bs xv yv Hs Hbs Ox Oy Hxv Hyv. replace (acc_pt h m A0 d i) with (acc_pt h m A0 d (i + 1 - 1)) by (f_equal; lia). apply IH; auto; try lia.
          * intros _. split; [apply lc_ok_var; exact Ox|]. split; [apply lc_ok_var; exact Oy|]. replace (i + 1 - 1)%nat with i by lia. rewrite !lc_val_var, Hxv, Hyv. exact Hxy.
          * replace (i + 1 - 1)%nat with (i - 1 + 1)%nat by lia. rewrite seq_app, map_app. apply Forall2_app; [exact Hb|]. cbn [seq map]. replace (1 + (i - 1))%nat with i by lia. constructor; [exact Hbs|constructor].
          * intros ok'' ax' ay' bits' Hs' O1 O2 Hc Hb'. apply HQ; auto. eapply ok_sub_trans; eassumption.
    Qed.
    Lemma loop_same : smooth h m A0 d -> forall k i acc' ax ay bits, (1 <= i)%nat -> (i + k = SS m)%nat ->
      simg (fun a b => fst (fst (fst a)) = acc_pt h m A0 d m /\ snd (fst (fst a)) = snd (fst (fst b)) /\ snd (fst a) = snd (fst b) /\ snd a = snd b)
        (rerand_loop tied m tables (Some r) k i (acc_pt h m A0 d (i - 1)) ax ay bits) (rerand_loop tied m tables None k i acc' ax ay bits).
    Proof.
      intros Hsm. induction k as [|k IH]; intros i acc' ax ay bits Hi Hk; cbn [rerand_loop]; [constructor; cbn [fst snd]; split; [f_equal; lia|auto]|].
      destruct (nth_table i ltac:(lia)) as (r0 & r1 & Hnt & Hgt). rewrite Hnt. cbn [punwrap].
      destruct (witness_some h m r0 r1 r i (acc_pt h m A0 d (i - 1)) Hgt Hi) as (wit & x & y & HW & _ & _ & _ & _ & Hfull & _).
      { intros H. destruct (proj2 Hsm i ltac:(lia)) as [N1 N2]. split; [|split; [exact N1|exact N2]]. apply smooth_acc; [exact Hsm|lia]. }
      { fold d. rewrite acc_pt_step by lia. apply smooth_acc; [exact Hsm|lia]. }
      { lia. }
      fold d in HW. rewrite acc_pt_step in HW by lia. rewrite HW. cbn [punwrap rerand_witness].
      apply iter_same; [exact Hfull|reflexivity|].
      intros bs xv yv. replace (acc_pt h m A0 d i) with (acc_pt h m A0 d (i + 1 - 1)) by (f_equal; lia). apply IH; lia.
    Qed.
  End Loop.

  (** ** the last addition *)
  Lemma final_complete w (w1 : w One = 1) x y P xt yt acc ax ay ok (Q : _ -> unit -> Prop) : ok One ->
    lc_ok ok x -> lc_ok ok y -> lc_ok ok xt -> lc_ok ok yt -> lc_ok ok ax -> lc_ok ok ay ->
    coords P = Some (lc_val w x, lc_val w y) -> coords acc = Some (lc_val w ax, lc_val w ay) -> acc <> P -> acc <> vopp P ->
    coords (vadd P acc) = Some (lc_val w xt, lc_val w yt) ->
    (forall ok', ok_sub ok ok' -> Q ok' tt) -> wpc w ok (rerand_final (mkPRep x y (Some P)) xt yt acc ax ay) Q.
  Proof.
    intros H1 Ox Oy Oxt Oyt Oax Oay HP Hacc Hne Hno Ht HQ. unfold rerand_final. cbn [pr_w pr_x pr_y]. rewrite HP, Hacc. cbn [punwrap].
    assert (Hx : lc_val w x <> lc_val w ax) by (eapply diff_x; eassumption).
    assert (N1 : lc_val w ax - lc_val w x <> 0) by (apply fsub_neq_0; congruence). assert (N2 : lc_val w x - lc_val w ax <> 0) by (apply fsub_neq_0; congruence).
    rewrite (fdiv_opt_some _ _ N1), (fdiv_opt_some _ _ N2). cbn [punwrap].
    eapply checked_complete; cbn [ca_xl ca_yl ca_xr ca_yr ca_xo ca_yo ca_delta]; auto.
    - field. exact N2.
    - pose proof (chord_eqs P acc _ _ _ _ _ _ HP Hacc Hx Ht) as Hadd. exact Hadd.
  Qed.
  Lemma final_same x y P xt yt acc acc' ax ay : P <> v0 -> acc <> v0 -> acc <> P -> acc <> vopp P ->
    simg eq (rerand_final (mkPRep x y (Some P)) xt yt acc ax ay) (rerand_final (mkPRep x y (None : option C)) xt yt acc' ax ay).
  Proof.
    intros HP Hacc Hne Hno. destruct (coords_some _ HP) as (xl & yl & E1). destruct (coords_some _ Hacc) as (xr & yr & E2).
    assert (Hx : xl <> xr) by (eapply diff_x; eassumption).
    unfold rerand_final. cbn [pr_w pr_x pr_y]. rewrite E1, E2. cbn [punwrap].
    rewrite fdiv_opt_some by (apply fsub_neq_0; congruence). rewrite fdiv_opt_some by (apply fsub_neq_0; congruence). cbn [punwrap].
    apply checked_same; [repeat split|discriminate|discriminate].
  Qed.
  Lemma final_sound w (w1 : w One = 1) x y wit xt yt acc ax ay (P A : C) : coords P = Some (lc_val w x, lc_val w y) -> coords A = Some (lc_val w ax, lc_val w ay) ->
    wps w (rerand_final (mkPRep x y (wit : option C)) xt yt acc ax ay) (fun _ => coords (vadd P A) = Some (lc_val w xt, lc_val w yt)).
  Proof.
    intros HP HA. unfold rerand_final. cbn [pr_w pr_x pr_y].
    assert (G : forall dl iv, wps w (checked_curve_addition (mkCA x y ax ay xt yt dl) iv) (fun _ => coords (vadd P A) = Some (lc_val w xt, lc_val w yt))).
    { intros dl iv. eapply wps_mono; [|apply checked_sound; exact w1]. cbn [ca_xl ca_yl ca_xr ca_yr ca_xo ca_yo]. intros _ (Hx & d & E1 & E2 & E3).
      eapply chord_sum; eassumption. }
    destruct wit as [Q|]; [|apply G]. destruct (coords Q) as [[? ?]|]; cbn [punwrap wps]; [|exact I]. destruct (coords acc) as [[? ?]|]; cbn [punwrap wps]; [|exact I].
    destruct (fdiv_opt _ _); cbn [punwrap wps]; [|exact I]. destruct (fdiv_opt _ _); cbn [punwrap wps]; [apply G|exact I].
  Qed.

  (** ** the whole gadget *)
  Definition digits_of (r : S) : nat -> nat := window_index (modulus_bits S) (pf_repr r).
  Lemma good_windows (h : C) ts : good_tables h ts -> (2 <= windows (S:=S))%nat.
  Proof.
    intros [_ Hg]. destruct (Nat.le_gt_cases 2 (windows (S:=S))) as [H|H]; [exact H|exfalso].
    assert (H1 : windows (S:=S) = 1%nat) by (unfold windows in *; lia). rewrite H1 in Hg. destruct (Hg 1%nat ltac:(lia)) as (r0 & r1 & _ & Hc). specialize (Hc 0%nat ltac:(lia)).
    unfold win_int, right_int in Hc. cbn in Hc. rewrite vsmul_0_l, coords_v0 in Hc. discriminate.
  Qed.
  Lemma good_h (h : C) ts : good_tables h ts -> h <> v0.
  Proof.
    intros Hgt ->. pose proof (good_windows _ _ Hgt). destruct Hgt as [_ Hg]. destruct (Hg 1%nat ltac:(lia)) as (r0 & r1 & _ & Hc). specialize (Hc 0%nat ltac:(lia)).
    rewrite vsmul_0_r, coords_v0 in Hc. discriminate.
  Qed.
  Lemma acc_full (h : C) A0 r : (1 <= windows (S:=S))%nat -> acc_pt h (windows (S:=S)) A0 (digits_of r) (windows (S:=S)) = vadd A0 (vsmul r h).
  Proof.
    intros Hm. unfold acc_pt. rewrite acc_int_full by exact Hm. unfold digits_of, windows. rewrite digits_full by apply pf_repr_lt. rewrite fZ_repr. reflexivity.
  Qed.
  Lemma rerand_complete w (w1 : w One = 1) tied (h : C) ts A0 r x y P xt yt ok (Q : _ -> list (Var * Var * Var) -> Prop) : good_tables h ts -> (tied = true -> A0 = v0) ->
    smooth h (windows (S:=S)) A0 (digits_of r) -> vadd A0 (vsmul r h) <> P -> vadd A0 (vsmul r h) <> vopp P ->
    ok One -> lc_ok ok x -> lc_ok ok y -> lc_ok ok xt -> lc_ok ok yt -> coords P = Some (lc_val w x, lc_val w y) ->
    coords (vadd P (vadd A0 (vsmul r h))) = Some (lc_val w xt, lc_val w yt) ->
    (forall ok' bits, ok_sub ok ok' -> Forall2 (bits_are w) bits (map (digits_of r) (seq 1 (windows (S:=S)))) -> Q ok' bits) ->
    wpc w ok (re_randomize_from tied A0 ts (mkPRep x y (Some P)) xt yt (Some r)) Q.
  Proof.
    intros Hgt Hti Hsm Hne Hno H1 Ox Oy Oxt Oyt HP Ht HQ. pose proof (good_windows _ _ Hgt) as Hm. destruct Hgt as [Hl Hg].
    unfold re_randomize_from. apply wpc_bind. cbn [option_map].
    assert (EA : A0 = acc_pt h (windows (S:=S)) A0 (digits_of r) (1 - 1)) by (unfold acc_pt; cbn [acc_int Nat.sub fZ]; rewrite vsmul_0_l; vring).
    rewrite EA at 1. apply (loop_complete h (windows (S:=S)) ts (pf_repr r) A0 tied Hl Hg Hm Hti w Hsm w1); auto; try lia. 1: constructor.
    intros ok' ax ay bits Hs Oax Oay Hc Hb. change (window_index (modulus_bits S) (pf_repr r)) with (digits_of r) in *. rewrite acc_full in Hc |- * by lia.
    apply wpc_bind. apply final_complete; auto; try (eapply lc_ok_sub; eassumption). intros ok2 Hs2. cbn [wpc]. apply HQ; [eapply ok_sub_trans; eassumption|exact Hb].
  Qed.
  Lemma rerand_same tied (h : C) ts (A0 A0' : C) (r : S) x y P xt yt : good_tables h ts ->
    smooth h (windows (S:=S)) A0 (digits_of r) -> vadd A0 (vsmul r h) <> P -> vadd A0 (vsmul r h) <> vopp P -> P <> v0 ->
    simg eq (re_randomize_from tied A0 ts (mkPRep x y (Some P)) xt yt (Some r)) (re_randomize_from tied A0' ts (mkPRep x y None) xt yt None).
  Proof.
    intros Hgt Hsm Hne Hno HP. pose proof (good_windows _ _ Hgt) as Hm. destruct Hgt as [Hl Hg].
    unfold re_randomize_from. cbn [option_map].
    assert (EA : A0 = acc_pt h (windows (S:=S)) A0 (digits_of r) (1 - 1)) by (unfold acc_pt; cbn [acc_int Nat.sub fZ]; rewrite vsmul_0_l; vring).
    rewrite EA at 1. set (A1 := acc_pt h (windows (S:=S)) A0 (digits_of r) (windows (S:=S))).
    eapply simg_bind with (R := fun a b => fst (fst (fst a)) = A1 /\ snd (fst (fst a)) = snd (fst (fst b)) /\ snd (fst a) = snd (fst b) /\ snd a = snd b).
    - subst A1. pose proof (loop_same h (windows (S:=S)) ts (pf_repr r) A0 tied Hl Hg Hm) as Hsame. apply Hsame; auto; try lia.
    - intros [[[a1 ax1] ay1] bits1] [[[a2 ax2] ay2] bits2] (E1 & E2 & E3 & E4). cbn [fst snd] in *. subst. subst A1. eapply simg_bind; [|intros ? ? _; constructor; reflexivity]. apply final_same; auto.
      + apply smooth_acc; [exact Hsm|lia].
      + rewrite acc_full by lia. exact Hne.
      + rewrite acc_full by lia. exact Hno.
  Qed.

  (** ** soundness of the tied gadget *)
  Lemma acc_int_ext m d d' n : (forall k, (k <= n)%nat -> d k = d' k) -> acc_int m d n = acc_int m d' n.
  Proof. induction n as [|n IH]; intros H; [reflexivity|]. cbn [acc_int]. rewrite IH by (intros; apply H; lia). rewrite (H (SS n)) by lia. reflexivity. Qed.
  (** no window equals the accumulator it is added to, whatever the digits *)
  Definition apart (S : PField) : Prop := forall (d : nat -> nat) i, (forall k, (d k < 8)%nat) -> (2 <= i < windows (S:=S))%nat ->
    ((win_int (windows (S:=S)) i (d i) - acc_int (windows (S:=S)) d (i - 1)) mod Z.of_N (pf_mod S) <> 0)%Z.
  Lemma loop_sound (h : C) tables r w (w1 : w One = 1) : good_tables h tables -> apart S -> forall k i acc ax ay bits, (1 <= i)%nat -> (i + k = SS (windows (S:=S)))%nat ->
    (exists d, (forall n, (d n < 8)%nat) /\ Forall2 (bits_are w) bits (map d (seq 1 (i - 1))) /\
       ((1 < i)%nat -> coords (acc_pt h (windows (S:=S)) v0 d (i - 1)) = Some (lc_val w ax, lc_val w ay))) ->
    wps w (rerand_loop true (windows (S:=S)) tables r k i acc ax ay bits) (fun '(_, ax', ay', bits') =>
      exists d, (forall n, (d n < 8)%nat) /\ Forall2 (bits_are w) bits' (map d (seq 1 (windows (S:=S)))) /\ coords (acc_pt h (windows (S:=S)) v0 d (windows (S:=S))) = Some (lc_val w ax', lc_val w ay')).
  Proof.
    intros Hgt Hap. pose proof (good_windows _ _ Hgt) as Hm. pose proof (good_h _ _ Hgt) as Hh. destruct Hgt as [Hl Hg].
    induction k as [|k IH]; intros i acc ax ay bits Hi Hk (d & Hd & Hb & Hinv); cbn [rerand_loop wps].
    - assert (i = SS (windows (S:=S))) by lia. subst i. specialize (Hinv ltac:(lia)). replace (SS (windows (S:=S)) - 1)%nat with (windows (S:=S)) in * by lia. exists d. auto.
    - destruct (nth_table h (windows (S:=S)) tables Hl Hg i ltac:(lia)) as (r0 & r1 & Hnt & Hgt). rewrite Hnt. cbn [punwrap].
      destruct (rerand_witness _ [r0; r1] r i acc) as [[wit acc']|]; cbn [punwrap wps]; [|exact I].
      apply iter_sound; [exact w1|]. intros bs xv yv j Hj Hbs Hadd Hti. apply IH; try lia. replace (i + 1 - 1)%nat with i by lia.
      set (d' := fun n => if (n =? i)%nat then j else d n). exists d'.
      assert (Hd' : forall n, (d' n < 8)%nat) by (intros n; subst d'; cbv beta; destruct (n =? i)%nat; auto).
      assert (Ei : d' i = j) by (subst d'; cbv beta; rewrite Nat.eqb_refl; reflexivity).
      assert (Elow : forall n, (n <= i - 1)%nat -> d' n = d n) by (intros n Hn; subst d'; cbv beta; destruct (Nat.eqb_spec n i); [lia|reflexivity]).
      split; [exact Hd'|]. split.
      { replace i with (i - 1 + 1)%nat at 1 by lia. rewrite seq_app, map_app. apply Forall2_app.
        - erewrite map_ext_in; [exact Hb|]. intros n Hn. apply in_seq in Hn. apply Elow. lia.
        - cbn [seq map]. replace (1 + (i - 1))%nat with i by lia. rewrite Ei. constructor; [exact Hbs|constructor]. }
      intros _. destruct Hgt as (r0' & r1' & Heq & Hrow). injection Heq as <- <-. specialize (Hrow j Hj). rewrite !lc_val_var.
      destruct (Nat.eq_dec i 1) as [->|Hne].
      + destruct (Hti (le_n 1) eq_refl) as [-> ->]. unfold acc_pt. cbn [acc_int]. rewrite Z.add_0_l, vadd_0_l, Ei. exact Hrow.
      + specialize (Hinv ltac:(lia)). rename Hinv into Hc. destruct (Hadd ltac:(lia)) as (Hlast & dl & E1 & E2 & E3).
        assert (Eacc : acc_int (windows (S:=S)) d' (i - 1) = acc_int (windows (S:=S)) d (i - 1)) by (apply acc_int_ext; exact Elow).
        rewrite <- acc_pt_step by lia. rewrite Ei. assert (Hc' : coords (acc_pt h (windows (S:=S)) v0 d' (i - 1)) = Some (lc_val w ax, lc_val w ay)) by (unfold acc_pt in *; rewrite Eacc; exact Hc).
        eapply chord_sum; [exact Hc'|exact Hrow| |exact E1|exact E2|exact E3].
        intros Hx. destruct (Nat.eq_dec i (windows (S:=S))) as [Hlst|Hlst]; [apply Hlast; auto|].
        rewrite <- Hx in E1. assert (Hy : row_at r1 j = lc_val w ay) by (apply fsub_0_iff; rewrite <- E1; ring).
        rewrite <- Hx, Hy in Hrow. pose proof (coords_inj _ _ _ Hrow Hc') as Hsame. unfold acc_pt, win_pt in Hsame. rewrite vadd_0_l in Hsame.
        apply (Hap d' i Hd' ltac:(lia)). apply fZ_eq_0. rewrite fZ_sub, Ei. apply (proj2 (fsub_0_iff _ _)). apply (vsmul_inj_l _ _ h Hh). exact Hsame.
  Qed.
  Lemma rerand_sound_tied (h : C) ts w (w1 : w One = 1) x y wit P xt yt r : good_tables h ts -> apart S ->
    coords P = Some (lc_val w x, lc_val w y) ->
    wps w (re_randomize_bits true ts (mkPRep x y (wit : option C)) xt yt r) (fun bits => exists d, (forall n, (d n < 8)%nat) /\
      Forall2 (bits_are w) bits (map d (seq 1 (windows (S:=S)))) /\ coords (vadd P (vsmul (fZ (digits_int d (windows (S:=S)))) h)) = Some (lc_val w xt, lc_val w yt)).
  Proof.
    intros Hgt Hap HP. unfold re_randomize_bits, re_randomize_from. apply wps_bind. pose proof (good_windows _ _ Hgt) as Hm.
    eapply wps_mono; [|apply (loop_sound h ts _ w w1 Hgt Hap); try lia].
    2:{ exists (fun _ => 0%nat). split; [intros; lia|]. split; [constructor|lia]. }
    intros [[[acc ax] ay] bits] (d & Hd & Hb & Hc). apply wps_bind.
    eapply wps_mono; [|eapply final_sound; [exact w1|exact HP|exact Hc]]. intros u Ht. cbv beta in *. cbn [wps]. unfold acc_pt in Ht. rewrite vadd_0_l, acc_int_full in Ht by lia. eauto.
  Qed.

  (** ** programs that cannot finish *)
  Section Panic.
    Context {W : VSpace F} (E : TrEnv W).
    Lemma prun_bind {A B} (p : Prog F A) (f : A -> Prog F B) s : prun E (pbind p f) s = match prun E p s with Some (s', a) => prun E (f a) s' | None => None end.
    Proof.
      revert s. induction p as [A a0|A|A l r k IH|A x k IH|A x k IH|A c k IH|A lb m k IH|A k IH|A lb k IH|A cb _ k IH]; intros s; cbn [pbind prun]; auto.
      - destruct (p_multiply s l r) as [[s' v]|]; auto.
      - destruct (p_allocate s x) as [[s' v]|]; auto.
      - destruct (p_allocate_multiplier s x) as [s' v]; auto.
      - destruct (challenge_scalar E (p_tr s) lb) as [[c t]|]; auto.
    Qed.
    (** every value the prover's run of [p] can return satisfies [Q] *)
    Definition pret {A} (p : Prog F A) (Q : A -> Prop) : Prop := forall s s' a, prun E p s = Some (s', a) -> Q a.
    Lemma pret_panic {A} (p : Prog F A) : pret p (fun _ => False) -> forall s, prun E p s = None.
    Proof. intros H s. destruct (prun E p s) as [[s' a]|] eqn:Ep; [destruct (H _ _ _ Ep)|reflexivity]. Qed.
    Lemma pret_bind {A B} (p : Prog F A) (f : A -> Prog F B) R Q : pret p R -> (forall a, R a -> pret (f a) Q) -> pret (pbind p f) Q.
    Proof. intros H1 H2 s s' b H. rewrite prun_bind in H. destruct (prun E p s) as [[s1 a]|] eqn:Ep; [|discriminate]. eapply H2; [eapply H1; exact Ep|exact H]. Qed.
    Lemma pret_bind' {A B} (p : Prog F A) (f : A -> Prog F B) Q : (forall a, pret (f a) Q) -> pret (pbind p f) Q.
    Proof. intros H. apply pret_bind with (R := fun _ => True); [intros ? ? ? _; exact I|intros a _; apply H]. Qed.
    Lemma pret_panic' {A} Q : pret (PPanic : Prog F A) Q. Proof. intros s s' a H. discriminate. Qed.
    Lemma pret_iter {A} tied m table i wit ax ay (next : Var * Var * Var -> Var -> Var -> Prog F A) Q : (forall bs xv yv, pret (next bs xv yv) Q) -> pret (rerand_iter tied m table i wit ax ay next) Q.
    Proof.
      intros H. unfold rerand_iter. apply pret_bind'. intros [[bs [|xt [|yt [|? ?]]]]|]; try apply pret_panic'.
      unfold palloc. intros s s' a. cbn [prun]. destruct (p_allocate s (rw_x wit)) as [[s1 [xv|?]]|]; cbn [prun]; try discriminate. destruct (p_allocate s1 (rw_y wit)) as [[s2 [yv|?]]|]; cbn [prun]; try discriminate.
      destruct (1 <? i)%nat; [destruct (i =? m)%nat; apply pret_bind'; intros; apply H|]. destruct tied; [cbn [prun]; apply H|apply H].
    Qed.
    Lemma witness_acc (h : C) m r0 r1 r i acc wit acc' : good_table h m i [r0; r1] -> rerand_witness m [r0; r1] (Some (pf_repr r)) i acc = Some (wit, acc') ->
      acc' = vadd acc (win_pt h m i (digits_of r i)).
    Proof.
      intros (r0' & r1' & Heq & Hrow) EW. injection Heq as <- <-. specialize (Hrow (digits_of r i) (window_index_lt _ _ _)). apply of_coords_spec in Hrow.
      unfold rerand_witness in EW. destruct (if (i =? 1)%nat then _ else _) as [[xl yl]|]; [|discriminate]. cbn [opt_bind] in EW.
      destruct (if (i =? 1)%nat then _ else option_map _ _) as [dl|]; [|discriminate]. cbn [opt_bind] in EW.
      destruct (if (i =? _)%nat then _ else _) as [iv|]; [|discriminate]. cbn [opt_bind nth] in EW.
      change (window_index (modulus_bits S) (pf_repr r) i) with (digits_of r i) in EW. rewrite Hrow in EW. cbn [opt_bind] in EW.
      destruct (coords _) as [xy|]; [|discriminate]. cbn [opt_bind] in EW. apply Some_inj, pair_inj in EW as [_ <-]. reflexivity.
    Qed.
    (** If the prover's loop finishes, no window was plus or minus the accumulator. *)
    Lemma loop_finishes (h : C) tables r tied A0 : good_tables h tables -> forall k i ax ay bits, (1 <= i)%nat -> (i + k = SS (windows (S:=S)))%nat ->
      pret (rerand_loop tied (windows (S:=S)) tables (Some (pf_repr r)) k i (acc_pt h (windows (S:=S)) A0 (digits_of r) (i - 1)) ax ay bits) (fun '(acc, _, _, _) =>
        acc = acc_pt h (windows (S:=S)) A0 (digits_of r) (windows (S:=S)) /\
        forall n, (i <= n <= windows (S:=S))%nat -> (1 < n)%nat -> win_pt h (windows (S:=S)) n (digits_of r n) <> acc_pt h (windows (S:=S)) A0 (digits_of r) (n - 1) /\
          win_pt h (windows (S:=S)) n (digits_of r n) <> vopp (acc_pt h (windows (S:=S)) A0 (digits_of r) (n - 1))).
    Proof.
      intros [Hl Hg]. induction k as [|k IH]; intros i ax ay bits Hi Hk; cbn [rerand_loop].
      - intros s s' a H. cbn [prun] in H. apply Some_inj, pair_inj in H as [_ <-]. split; [f_equal; lia|lia].
      - destruct (nth_table h (windows (S:=S)) tables Hl Hg i ltac:(lia)) as (r0 & r1 & Hnt & Hgt). rewrite Hnt. cbn [punwrap].
        destruct (rerand_witness _ [r0; r1] (Some (pf_repr r)) i _) as [[wit acc']|] eqn:EW; cbn [punwrap]; [|apply pret_panic'].
        assert (Eacc : acc' = acc_pt h (windows (S:=S)) A0 (digits_of r) (i + 1 - 1)).
        { rewrite (witness_acc _ _ _ _ _ _ _ _ _ Hgt EW). replace (i + 1 - 1)%nat with i by lia. apply acc_pt_step. lia. }
        rewrite Eacc. apply pret_iter. intros bs xv yv s s' [[[acc ax'] ay'] bits'] H. destruct (IH (i + 1)%nat (lc_var xv) (lc_var yv) (bits ++ [bs]) ltac:(lia) ltac:(lia) _ _ _ H) as [H1 H2].
        split; [exact H1|]. intros n Hn Hn1. destruct (Nat.eq_dec n i) as [->|Hne]; [|apply H2; lia].
        split; intros Hcol; pose proof (witness_none h (windows (S:=S)) r0 r1 (pf_repr r) i (acc_pt h (windows (S:=S)) A0 (digits_of r) (i - 1)) Hgt Hn1) as HN; cbv zeta in HN;
          change (window_index (modulus_bits S) (pf_repr r) i) with (digits_of r i) in HN; rewrite HN in EW by auto; discriminate.
    Qed.
    Lemma final_finishes x y P xt yt (acc : C) ax ay :
      pret (rerand_final (mkPRep x y (Some P)) xt yt acc ax ay) (fun _ => P <> v0 /\ acc <> v0 /\ acc <> P /\ acc <> vopp P).
    Proof.
      unfold rerand_final. cbn [pr_w]. destruct (coords P) as [[xl yl]|] eqn:E1; [|apply pret_panic']. cbn [punwrap].
      destruct (coords acc) as [[xr yr]|] eqn:E2; [|apply pret_panic']. cbn [punwrap].
      destruct (feqb xl xr) eqn:Ex; [apply feqb_true in Ex; rewrite (fdiv_opt_none _ (xr - xl)) by (rewrite Ex; ring); apply pret_panic'|].
      apply feqb_false in Ex. intros s s' a _. split; [eapply coords_neq_0; exact E1|]. split; [eapply coords_neq_0; exact E2|].
      assert (N : ~ (acc = P \/ acc = vopp P)) by (intros H; apply Ex; apply (x_eq_iff P acc _ _ _ _ E1 E2); exact H). tauto.
    Qed.
    (** If the prover's gadget finishes, nothing exceptional happened. *)
    Lemma rerand_finishes (h : C) ts tied A0 r x y P xt yt : good_tables h ts ->
      pret (re_randomize_from tied A0 ts (mkPRep x y (Some P)) xt yt (Some r)) (fun _ =>
        (forall n, (1 < n <= windows (S:=S))%nat -> win_pt h (windows (S:=S)) n (digits_of r n) <> acc_pt h (windows (S:=S)) A0 (digits_of r) (n - 1) /\
          win_pt h (windows (S:=S)) n (digits_of r n) <> vopp (acc_pt h (windows (S:=S)) A0 (digits_of r) (n - 1))) /\
        P <> v0 /\ vadd A0 (vsmul r h) <> P /\ vadd A0 (vsmul r h) <> vopp P).
    Proof.
      intros Hgt. pose proof (good_windows _ _ Hgt) as Hm. unfold re_randomize_from. cbn [option_map].
      assert (EA : A0 = acc_pt h (windows (S:=S)) A0 (digits_of r) (1 - 1)) by (unfold acc_pt; cbn [acc_int Nat.sub fZ]; rewrite vsmul_0_l; vring).
      rewrite EA at 1. eapply pret_bind; [apply (loop_finishes h ts r tied A0 Hgt); lia|]. intros [[[acc ax] ay] bits] (-> & H2). eapply pret_bind; [|intros a Ha; intros s s' b H; exact Ha].
      intros s s' a H. destruct (final_finishes _ _ _ _ _ _ _ _ _ _ _ H) as (N1 & N2 & N3 & N4). rewrite acc_full in N2, N3, N4 by lia. split; [|auto]. intros n Hn. apply H2; lia.
    Qed.
  End Panic.
End RR.
