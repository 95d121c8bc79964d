(** * Lemmas on the single-level gadgets (single_level_select_and_rerandomize.rs) *)
From Verif Require Export RerandMore.
From Verif Require Import CSProofs UtilProofs Lockstep.
Local Open Scope F_scope.

(** Sum of a list of points (specification). *)
Definition psum {S : Field} {C : VSpace S} (l : list C) : C := fold_right vadd v0 l.

Lemma psum_cons {S : Field} {C : VSpace S} (P : C) l : psum (P :: l) = vadd P (psum l). Proof. reflexivity. Qed.
Lemma Forall2_cons_inv {A B} (R : A -> B -> Prop) a b l l' : Forall2 R (a :: l) (b :: l') -> R a b /\ Forall2 R l l'.
Proof. intros H. inversion H; subst. auto. Qed.

Lemma skipn_step {A} : forall i (l : list A) x r, x :: r = skipn i l -> nth_error l i = Some x /\ r = skipn (i + 1) l.
Proof.
  induction i as [|i IH]; intros [|y l] x r H; try discriminate H.
  - cbn in H |- *. injection H as -> ->. auto.
  - cbn [skipn] in H. destruct (IH l x r H) as [H1 H2]. auto.
Qed.

Lemma wps_true {F : Field} {A} (w : Var -> F) (p : Prog F A) : wps w p (fun _ => True).
Proof. induction p; cbn [wps]; auto. Qed.

Section SL.
  Context {F : Field} {S : PField} {C : SWCurve F S}.
  Add Field FFsl : (f_th F).
  Add Field FSsl : (f_th S).
  Implicit Types (ok : Var -> Prop) (sl : SLParams C).

  (** Parameters as produced by [sl_new]. *)
  Definition sl_good sl : Prop := sl_a sl = sw_a C /\ sl_b sl = sw_b C /\ good_tables (pcB_blinding (sl_pc sl)) (sl_tables sl).
  Lemma sl_new_good bp pc delta sl : sl_new bp pc delta = Some sl -> sl_good sl /\ sl_bp sl = bp /\ sl_pc sl = pc /\ sl_delta sl = delta.
  Proof.
    unfold sl_new. destruct (build_tables (pcB_blinding pc)) as [ts|] eqn:E; cbn [opt_bind]; [|discriminate]. intros H. apply Some_inj in H. subst sl.
    cbn. split; [|auto]. split; [reflexivity|]. split; [reflexivity|]. apply build_tables_good. exact E.
  Qed.

  (** A point whose x-coordinate is one of the given values. *)
  Definition selected (w : Var -> F) (P : C) (children : list (LC F)) : Prop :=
    exists x y c, coords P = Some (x, y) /\ In c children /\ lc_val w c = x.

  Lemma check_point sl (x y : F) : sl_good sl -> sw_a C = 0 -> y * y = x * x * x + sl_a sl * (x * x) + sl_b sl -> exists P : C, coords P = Some (x, y).
  Proof. intros (Ha & Hb & _) H0 E. apply coords_ex. rewrite E, Ha, Hb, H0. ring. Qed.
  Lemma point_check sl (P : C) (x y : F) : sl_good sl -> sw_a C = 0 -> coords P = Some (x, y) -> y * y = x * x * x + sl_a sl * (x * x) + sl_b sl.
  Proof. intros (Ha & Hb & _) H0 E. rewrite (coords_on _ _ _ _ _ _ E), Ha, Hb, H0. ring. Qed.
  Lemma raw_xy_some (P : C) x y : coords P = Some (x, y) -> raw_xy P = (x, y).
  Proof. unfold raw_xy. intros ->. reflexivity. Qed.

  Lemma single_selects w (w1 : w One = 1) tied A0 enc sl R children wit r : sl_good sl -> sw_a C = 0 ->
    wps w (single_level_from tied A0 enc sl R children wit r) (fun _ => exists P, selected w P children).
  Proof.
    intros Hg H0. unfold single_level_from, palloc. cbn [wps]. intros xv. apply wps_bind. eapply wps_mono; [|apply select_sound].
    intros [] HE. cbn [wps]. intros yv. apply wps_bind. eapply wps_mono; [|apply curve_check_sound; exact w1]. intros [] Hc. rewrite !lc_val_var in Hc.
    destruct (check_point _ _ _ Hg H0 Hc) as (P & HP). eapply wps_mono; [|apply wps_true]. intros _ _.
    apply Exists_exists in HE as (c & Hin & Hcv). rewrite lc_val_var in Hcv. exists P, (w xv), (w yv), c. auto.
  Qed.
  Lemma single_sound w (w1 : w One = 1) enc sl R children wit r : sl_good sl -> sw_a C = 0 -> apart S -> vadd R (sl_delta sl) <> v0 ->
    wps w (single_level_from true v0 enc sl R children wit r) (fun bits => exists P d, selected w P children /\ (forall n, (d n < 8)%nat) /\
      Forall2 (bits_are w) bits (map d (seq 1 (windows (S:=S)))) /\
      vadd R (sl_delta sl) = vadd P (vsmul (fZ (digits_int d (windows (S:=S)))) (pcB_blinding (sl_pc sl)))).
  Proof.
    intros Hg H0 Hap HR. unfold single_level_from, palloc. cbn [wps]. intros xv. apply wps_bind. eapply wps_mono; [|apply select_sound].
    intros [] HE. cbn [wps]. intros yv. apply wps_bind. eapply wps_mono; [|apply curve_check_sound; exact w1]. intros [] Hc. rewrite !lc_val_var in Hc.
    destruct (check_point _ _ _ Hg H0 Hc) as (P & HP).
    eapply wps_mono; [|apply (rerand_sound_tied (pcB_blinding (sl_pc sl)) (sl_tables sl) w w1 _ _ wit P); [apply Hg|exact Hap|rewrite !lc_val_var; exact HP]].
    intros bits (d & Hd & Hb & Ht). rewrite !lc_val_const in Ht by exact w1.
    destruct (coords_some _ HR) as (xt & yt & Hxy). rewrite (raw_xy_some _ _ _ Hxy) in Ht. cbn [fst snd] in Ht.
    exists P, d. split; [|split; [exact Hd|split; [exact Hb|eapply coords_inj; eassumption]]].
    apply Exists_exists in HE as (c & Hin & Hcv). rewrite lc_val_var in Hcv. exists (w xv), (w yv), c. auto.
  Qed.
  (** the same for the point at infinity as target: its raw coordinates are (0,0) *)
  Lemma single_sound_infinity w (w1 : w One = 1) enc sl R children wit r : sl_good sl -> sw_a C = 0 -> sw_b C <> 0 -> apart S -> vadd R (sl_delta sl) = v0 ->
    wps w (single_level_from true v0 enc sl R children wit r) (fun _ => False).
  Proof.
    intros Hg H0 Hb Hap HR. unfold single_level_from, palloc. cbn [wps]. intros xv. apply wps_bind. eapply wps_mono; [|apply select_sound].
    intros [] HE. cbn [wps]. intros yv. apply wps_bind. eapply wps_mono; [|apply curve_check_sound; exact w1]. intros [] Hc. rewrite !lc_val_var in Hc.
    destruct (check_point _ _ _ Hg H0 Hc) as (P & HP).
    eapply wps_mono; [|apply (rerand_sound_tied (pcB_blinding (sl_pc sl)) (sl_tables sl) w w1 _ _ wit P); [apply Hg|exact Hap|rewrite !lc_val_var; exact HP]].
    intros bits (d & Hd & Hbb & Ht). rewrite !lc_val_const in Ht by exact w1. rewrite HR in Ht. unfold raw_xy in Ht. rewrite coords_v0 in Ht. cbn [fst snd] in Ht.
    apply coords_on in Ht. apply Hb. transitivity (0 * 0 * 0 + sw_a C * 0 + sw_b C); [ring|]. rewrite <- Ht. ring.
  Qed.

  Lemma single_complete w (w1 : w One = 1) tied A0 enc sl R children (P : C) (r : S) ok (Q : _ -> list (Var * Var * Var) -> Prop) : sl_good sl -> sw_a C = 0 ->
    (tied = true -> A0 = v0) -> let h := pcB_blinding (sl_pc sl) in
    smooth h (windows (S:=S)) A0 (digits_of r) -> vadd A0 (vsmul r h) <> P -> vadd A0 (vsmul r h) <> vopp P ->
    selected w P children -> vadd R (sl_delta sl) = vadd P (vadd A0 (vsmul r h)) -> ok One -> Forall (lc_ok ok) children ->
    (forall ok' bits, ok_sub ok ok' -> Forall2 (bits_are w) bits (map (digits_of r) (seq 1 (windows (S:=S)))) -> Q ok' bits) ->
    wpc w ok (single_level_from tied A0 enc sl R children (Some P) (Some r)) Q.
  Proof.
    intros Hg H0 Hti h Hsm Hne Hno (x & y & c & HP & Hin & Hc) HR H1 Hch HQ. unfold single_level_from, palloc. cbn [wpc option_map].
    rewrite (raw_xy_some _ _ _ HP). cbn [fst snd]. intros xv Hxv. set (k1 := ok_add ok xv). assert (S1 : ok_sub ok k1) by (apply ok_sub_add, ok_sub_refl).
    apply wpc_bind. apply select_complete.
    - apply lc_ok_var, ok_add_in.
    - revert Hch. apply Forall_impl. intros a. exact (lc_ok_sub _ _ _ S1).
    - apply Exists_exists. exists c. split; [exact Hin|]. rewrite lc_val_var, Hxv. exact Hc.
    - intros k2 S2. cbn [wpc]. intros yv Hyv. set (k3 := ok_add k2 yv). assert (S3 : ok_sub k2 k3) by (apply ok_sub_add, ok_sub_refl).
      assert (Oxv : k1 xv) by apply ok_add_in. assert (Oyv : k3 yv) by apply ok_add_in.
      apply wpc_bind. apply curve_check_complete; [exact w1| | | | |].
      + apply S3, S2, S1, H1.
      + apply lc_ok_var, S3, S2, Oxv.
      + apply lc_ok_var, Oyv.
      + rewrite !lc_val_var, Hxv, Hyv. eapply point_check; eassumption.
      + intros k4 S4. eapply (rerand_complete w w1 tied h (sl_tables sl) A0 r).
        * apply Hg.
        * exact Hti.
        * exact Hsm.
        * exact Hne.
        * exact Hno.
        * apply S4, S3, S2, S1, H1.
        * apply lc_ok_var, S4, S3, S2, Oxv.
        * apply lc_ok_var, S4, Oyv.
        * apply lc_ok_const, S4, S3, S2, S1, H1.
        * apply lc_ok_const, S4, S3, S2, S1, H1.
        * rewrite !lc_val_var, Hxv, Hyv. exact HP.
        * rewrite !lc_val_const by exact w1. rewrite <- HR.
          assert (HT : vadd R (sl_delta sl) <> v0).
          { rewrite HR. intros E. apply Hno. transitivity (vadd (vopp P) (vadd P (vadd A0 (vsmul r h)))); [vring|rewrite E; vring]. }
          destruct (coords_some _ HT) as (xt & yt & Hxy). rewrite (raw_xy_some _ _ _ Hxy). exact Hxy.
        * intros ok' bits Hs Hb. apply HQ; [|exact Hb]. eapply ok_sub_trans; [|exact Hs]. eapply ok_sub_trans; [|exact S4]. eapply ok_sub_trans; [|exact S3]. eapply ok_sub_trans; eassumption.
  Qed.
  Lemma curve_check_same (x y : LC F) a b : simg eq (curve_check x y a b) (curve_check x y a b).
  Proof. unfold curve_check. constructor; intros [[? ?] ?]. constructor; intros [[? ?] ?]. constructor; intros [[? ?] ?]. constructor. constructor. reflexivity. Qed.
  Lemma single_same tied A0 A0' enc sl R children (P : C) (r : S) : sl_good sl -> let h := pcB_blinding (sl_pc sl) in
    smooth h (windows (S:=S)) A0 (digits_of r) -> vadd A0 (vsmul r h) <> P -> vadd A0 (vsmul r h) <> vopp P -> P <> v0 ->
    simg eq (single_level_from tied A0 enc sl R children (Some P) (Some r)) (single_level_from tied A0' enc sl R children None None).
  Proof.
    intros Hg h Hsm Hne Hno HP. unfold single_level_from, palloc. cbn [option_map]. constructor. constructor. intros xv. eapply simg_bind; [apply select_same|].
    intros [] [] _. constructor. intros yv. eapply simg_bind; [apply curve_check_same|]. intros [] [] _. eapply rerand_same; try eassumption. apply Hg.
  Qed.

  (** *** Batched *)
  Lemma checked_helper_sound w (w1 : w One = 1) (l r : PRep C) (P Q : C) : coords P = Some (lc_val w (pr_x l), lc_val w (pr_y l)) -> coords Q = Some (lc_val w (pr_x r), lc_val w (pr_y r)) ->
    wps w (checked_helper l r) (fun o : PRep C => coords (vadd P Q) = Some (lc_val w (pr_x o), lc_val w (pr_y o))).
  Proof.
    intros HP HQ. unfold checked_helper.
    assert (G : forall xo yo dl iv (out : option C), wps w (palloc xo (fun x_out => palloc yo (fun y_out =>
        pbind (checked_curve_addition (mkCA (pr_x l) (pr_y l) (pr_x r) (pr_y r) (lc_var x_out) (lc_var y_out) dl) iv)
              (fun _ => PRet (mkPRep (lc_var x_out) (lc_var y_out) out))))) (fun o : PRep C => coords (vadd P Q) = Some (lc_val w (pr_x o), lc_val w (pr_y o)))).
    { intros xo yo dl iv out. unfold palloc. cbn [wps]. intros xv yv. apply wps_bind. eapply wps_mono; [|apply checked_sound; exact w1]. cbn [ca_xl ca_yl ca_xr ca_yr ca_xo ca_yo].
      intros _ (Hx & d & E1 & E2 & E3). cbn [wps pr_x pr_y]. eapply chord_sum; eassumption. }
    destruct (pr_w l) as [P'|]; [|apply G]. destruct (pr_w r) as [Q'|]; [|apply G].
    destruct (coords P') as [[? ?]|]; cbn [punwrap wps]; [|exact I]. destruct (coords Q') as [[? ?]|]; cbn [punwrap wps]; [|exact I].
    destruct (fdiv_opt _ _); cbn [punwrap wps]; [|exact I]. destruct (fdiv_opt _ _); cbn [punwrap wps]; [|exact I].
    destruct (coords (vadd P' Q')) as [[? ?]|]; cbn [punwrap wps]; [|exact I]. apply G.
  Qed.
  Lemma batched_loop_sound w (w1 : w One = 1) sl ws : sl_good sl -> sw_a C = 0 -> forall chunks i sum (A : C),
    (i = 0%nat -> A = v0) -> (i <> 0%nat -> coords A = Some (lc_val w (pr_x sum), lc_val w (pr_y sum))) ->
    wps w (batched_loop sl ws i chunks sum) (fun sum' => exists Ps, Forall2 (selected w) Ps chunks /\
      (i <> 0%nat \/ chunks <> [] -> coords (vadd A (psum Ps)) = Some (lc_val w (pr_x sum'), lc_val w (pr_y sum')))).
  Proof.
    intros Hg H0. induction chunks as [|chunk chunks IH]; intros i sum A Hi0 Hi1; cbn [batched_loop wps].
    - exists []. split; [constructor|]. intros [H|H]; [|congruence]. cbn [psum fold_right]. rewrite vadd_0_r. auto.
    - destruct (match ws with None => Some None | Some l => option_map Some (nth_error l i) end) as [wit|]; cbn [punwrap wps]; [|exact I].
      unfold palloc. cbn [wps]. intros xv yv. apply wps_bind. eapply wps_mono; [|apply select_sound]. intros [] HE.
      apply wps_bind. eapply wps_mono; [|apply curve_check_sound; exact w1]. intros [] Hc. rewrite !lc_val_var in Hc.
      destruct (check_point _ _ _ Hg H0 Hc) as (P & HP).
      assert (Hsel : selected w P chunk).
      { apply Exists_exists in HE as (c & Hin & Hcv). rewrite lc_val_var in Hcv. exists (w xv), (w yv), c. auto. }
      apply wps_bind. apply wps_mono with (Q := fun sum1 => coords (vadd A P) = Some (lc_val w (pr_x sum1), lc_val w (pr_y sum1))).
      + intros sum1 H1. eapply wps_mono; [|apply (IH (i + 1)%nat sum1 (vadd A P)); [lia|intros _; exact H1]].
        intros sum' (Ps & HF & Hs). exists (P :: Ps). split; [constructor; assumption|]. intros _. rewrite psum_cons, vadd_assoc. apply Hs. left. lia.
      + destruct (Nat.eqb_spec i 0) as [Hz|Hnz].
        * cbn [wps pr_x pr_y]. rewrite (Hi0 Hz), vadd_0_l, !lc_val_var. exact HP.
        * apply checked_helper_sound; [exact w1|apply Hi1; exact Hnz|cbn [pr_x pr_y]; rewrite !lc_val_var; exact HP].
  Qed.
  Lemma checked_helper_complete w (w1 : w One = 1) (xl yl xr yr : LC F) (P Q : C) ok (K : _ -> PRep C -> Prop) :
    coords P = Some (lc_val w xl, lc_val w yl) -> coords Q = Some (lc_val w xr, lc_val w yr) -> Q <> P -> Q <> vopp P ->
    ok One -> lc_ok ok xl -> lc_ok ok yl -> lc_ok ok xr -> lc_ok ok yr ->
    (forall ok' xo yo, ok_sub ok ok' -> lc_ok ok' xo -> lc_ok ok' yo -> coords (vadd P Q) = Some (lc_val w xo, lc_val w yo) -> K ok' (mkPRep xo yo (Some (vadd P Q)))) ->
    wpc w ok (checked_helper (mkPRep xl yl (Some P)) (mkPRep xr yr (Some Q))) K.
  Proof.
    intros HP HQ Hne Hno H1 O1 O2 O3 O4 HK. unfold checked_helper. cbn [pr_w pr_x pr_y]. rewrite HP, HQ. cbn [punwrap].
    assert (Hx : lc_val w xl <> lc_val w xr) by (eapply diff_x; eassumption).
    assert (N1 : lc_val w xr - lc_val w xl <> 0) by (apply fsub_neq_0; congruence). assert (N2 : lc_val w xl - lc_val w xr <> 0) by (apply fsub_neq_0; congruence).
    rewrite (fdiv_opt_some _ _ N1), (fdiv_opt_some _ _ N2). cbn [punwrap].
    assert (HT : vadd P Q <> v0) by (apply opp_sum; exact Hno).
    destruct (coords_some _ HT) as (xo & yo & Ho). rewrite Ho. cbn [punwrap]. unfold palloc. cbn [wpc]. intros xv Hxv yv Hyv.
    set (k1 := ok_add ok xv). set (k2 := ok_add k1 yv). assert (S1 : ok_sub ok k2) by (do 2 apply ok_sub_add; apply ok_sub_refl).
    assert (Oxv : k2 xv) by (left; apply ok_add_in). assert (Oyv : k2 yv) by apply ok_add_in.
    apply wpc_bind. eapply checked_complete; cbn [ca_xl ca_yl ca_xr ca_yr ca_xo ca_yo ca_delta]; auto.
    - exact (lc_ok_sub _ _ _ S1 O1).
    - exact (lc_ok_sub _ _ _ S1 O2).
    - exact (lc_ok_sub _ _ _ S1 O3).
    - exact (lc_ok_sub _ _ _ S1 O4).
    - apply lc_ok_var, Oxv.
    - apply lc_ok_var, Oyv.
    - field. exact N2.
    - rewrite !lc_val_var, Hxv, Hyv. apply (chord_eqs P Q); assumption.
    - intros k3 S3. cbn [wpc]. apply HK.
      + eapply ok_sub_trans; eassumption.
      + apply lc_ok_var, S3, Oxv.
      + apply lc_ok_var, S3, Oyv.
      + rewrite !lc_val_var, Hxv, Hyv. exact Ho.
  Qed.
  (** No exceptional addition when the points of [Ps] are added to [A] one by one;
      the first one is taken over without an addition when [first]. *)
  Fixpoint sums_apart (first : bool) (A : C) (Ps : list C) : Prop :=
    match Ps with
    | [] => True
    | P :: Ps' => (first = false -> P <> A /\ P <> vopp A) /\ sums_apart false (vadd A P) Ps'
    end.
  Lemma batched_loop_complete w (w1 : w One = 1) sl all : sl_good sl -> sw_a C = 0 -> forall chunks i Ps x y (A : C) ok (K : _ -> PRep C -> Prop),
    Ps = skipn i all -> (length chunks <= length Ps)%nat -> Forall2 (selected w) (firstn (length chunks) Ps) chunks -> sums_apart (i =? 0)%nat A (firstn (length chunks) Ps) ->
    (i = 0%nat -> A = v0) -> (i <> 0%nat -> coords A = Some (lc_val w x, lc_val w y)) ->
    ok One -> lc_ok ok x -> lc_ok ok y -> Forall (Forall (lc_ok ok)) chunks ->
    (forall ok' x' y', ok_sub ok ok' -> lc_ok ok' x' -> lc_ok ok' y' -> (i <> 0%nat \/ chunks <> [] -> coords (vadd A (psum (firstn (length chunks) Ps))) = Some (lc_val w x', lc_val w y')) ->
        K ok' (mkPRep x' y' (Some (vadd A (psum (firstn (length chunks) Ps)))))) ->
    wpc w ok (batched_loop sl (Some all) i chunks (mkPRep x y (Some A))) K.
  Proof.
    intros Hg H0. induction chunks as [|chunk chunks IH]; intros i Ps x y A ok K HPs Hlen HF Hap Hi0 Hi1 H1 Ox Oy Hch HK; cbn [batched_loop wpc].
    - cbn [length firstn psum fold_right] in HK. specialize (HK ok x y (ok_sub_refl ok) Ox Oy). rewrite vadd_0_r in HK. apply HK. intros [H|H]; [auto|congruence].
    - destruct Ps as [|P Ps]; [cbn in Hlen; lia|]. cbn [length firstn] in *. apply Forall2_cons_inv in HF as [(px & py & c & HP & Hin & Hc) HF]. cbn [sums_apart] in Hap. destruct Hap as [Hap1 Hap].
      destruct (skipn_step i all P Ps HPs) as [Hn Hsk].
      rewrite Hn. cbn [option_map punwrap]. unfold palloc. cbn [wpc]. rewrite (raw_xy_some _ _ _ HP). cbn [fst snd]. intros xv Hxv yv Hyv.
      set (k1 := ok_add ok xv). set (k2 := ok_add k1 yv). assert (S2 : ok_sub ok k2) by (do 2 apply ok_sub_add; apply ok_sub_refl).
      assert (Oxv : k2 xv) by (left; apply ok_add_in). assert (Oyv : k2 yv) by apply ok_add_in. apply Forall_cons_iff in Hch as [Hc1 Hch].
      apply wpc_bind. apply select_complete.
      + apply lc_ok_var, Oxv.
      + revert Hc1. apply Forall_impl. intros a. exact (lc_ok_sub _ _ _ S2).
      + apply Exists_exists. exists c. split; [exact Hin|]. rewrite lc_val_var, Hxv. exact Hc.
      + intros k3 S3. apply wpc_bind. apply curve_check_complete; [exact w1| | | | |].
        * apply S3, S2, H1.
        * apply lc_ok_var, S3, Oxv.
        * apply lc_ok_var, S3, Oyv.
        * rewrite !lc_val_var, Hxv, Hyv. eapply point_check; eassumption.
        * intros k4 S4. assert (S24 : ok_sub k2 k4) by (eapply ok_sub_trans; eassumption). assert (S04 : ok_sub ok k4) by (eapply ok_sub_trans; eassumption).
          apply wpc_bind.
          assert (Hgo : forall k5 x' y', ok_sub k4 k5 -> lc_ok k5 x' -> lc_ok k5 y' -> coords (vadd A P) = Some (lc_val w x', lc_val w y') ->
             wpc w k5 (batched_loop sl (Some all) (i + 1) chunks (mkPRep x' y' (Some (vadd A P)))) K).
          { intros k5 x' y' S5 Ox' Oy' Hs. assert (S05 : ok_sub ok k5) by (eapply ok_sub_trans; eassumption).
            eapply IH; [exact Hsk|lia|exact HF| |lia|intros _; exact Hs|apply S05, H1|exact Ox'|exact Oy'| |].
            - destruct (Nat.eqb_spec (i + 1) 0); [lia|]. exact Hap.
            - revert Hch. apply Forall_impl. intros l. apply Forall_impl. intros a. exact (lc_ok_sub _ _ _ S05).
            - intros ok' x2 y2 S6 Ox2 Oy2 H2. specialize (HK ok' x2 y2). rewrite psum_cons, vadd_assoc in HK. apply HK; [eapply ok_sub_trans; eassumption|assumption|assumption|].
              intros _. apply H2. left. lia. }
          destruct (Nat.eqb_spec i 0) as [Hz|Hnz].
          -- cbn [wpc]. replace P with (vadd A P) at 1 by (rewrite (Hi0 Hz); apply vadd_0_l). apply Hgo; [apply ok_sub_refl|apply lc_ok_var, S24, Oxv|apply lc_ok_var, S24, Oyv|].
             rewrite (Hi0 Hz), vadd_0_l, !lc_val_var, Hxv, Hyv. exact HP.
          -- destruct (Hap1 eq_refl) as [N1 N2]. apply checked_helper_complete; auto.
             ++ rewrite !lc_val_var, Hxv, Hyv. exact HP.
             ++ exact (lc_ok_sub _ _ _ S04 Ox).
             ++ exact (lc_ok_sub _ _ _ S04 Oy).
             ++ apply lc_ok_var, S24, Oxv.
             ++ apply lc_ok_var, S24, Oyv.
  Qed.
  Lemma checked_helper_same (xl yl xr yr : LC F) (P Q : C) : P <> v0 -> Q <> v0 -> Q <> P -> Q <> vopp P ->
    simg (fun a b => pr_x a = pr_x b /\ pr_y a = pr_y b /\ pr_w a = Some (vadd P Q) /\ pr_w b = None)
      (checked_helper (mkPRep xl yl (Some P)) (mkPRep xr yr (Some Q))) (checked_helper (mkPRep xl yl (None : option C)) (mkPRep xr yr None)).
  Proof.
    intros HP HQ Hne Hno. unfold checked_helper. cbn [pr_w pr_x pr_y].
    destruct (coords_some _ HP) as (x1 & y1 & E1). destruct (coords_some _ HQ) as (x2 & y2 & E2). rewrite E1, E2. cbn [punwrap].
    assert (Hx : x1 <> x2) by (eapply diff_x; eassumption).
    rewrite fdiv_opt_some by (apply fsub_neq_0; congruence). rewrite fdiv_opt_some by (apply fsub_neq_0; congruence). cbn [punwrap].
    assert (HT : vadd P Q <> v0) by (apply opp_sum; exact Hno). destruct (coords_some _ HT) as (xo & yo & Ho). rewrite Ho. cbn [punwrap]. unfold palloc.
    constructor. intros xv. constructor. intros yv. eapply simg_bind; [apply checked_same; [repeat split|discriminate|discriminate]|].
    intros [] [] _. constructor. cbn. auto.
  Qed.
  Lemma batched_loop_same sl all : forall chunks i Ps sum sum' (A : C),
    Ps = skipn i all -> (length chunks <= length Ps)%nat -> Forall (fun P => P <> v0) (firstn (length chunks) Ps) -> sums_apart (i =? 0)%nat A (firstn (length chunks) Ps) ->
    (i = 0%nat -> A = v0) -> (i <> 0%nat -> A <> v0) -> pr_x sum = pr_x sum' -> pr_y sum = pr_y sum' -> pr_w sum = Some A -> pr_w sum' = None ->
    simg (fun a b => pr_x a = pr_x b /\ pr_y a = pr_y b /\ pr_w a = Some (vadd A (psum (firstn (length chunks) Ps))) /\ pr_w b = None)
      (batched_loop sl (Some all) i chunks sum) (batched_loop sl None i chunks sum').
  Proof.
    induction chunks as [|chunk chunks IH]; intros i Ps sum sum' A HPs Hlen HF Hap Hi0 Hi1 Ex Ey Ew Ew'; cbn [batched_loop].
    - cbn [length firstn psum fold_right]. constructor. rewrite vadd_0_r. auto.
    - destruct Ps as [|P Ps]; [cbn in Hlen; lia|]. cbn [length firstn] in *. apply Forall_cons_iff in HF as [HP HF]. cbn [sums_apart] in Hap. destruct Hap as [Hap1 Hap].
      destruct (skipn_step i all P Ps HPs) as [Hn Hsk]. rewrite Hn. cbn [option_map punwrap]. unfold palloc. constructor. intros xv. constructor. intros yv.
      eapply simg_bind; [apply select_same|]. intros [] [] _. eapply simg_bind; [apply curve_check_same|]. intros [] [] _.
      assert (Hnz : i <> 0%nat -> vadd A P <> v0). { intros Hi. destruct (Nat.eqb_spec i 0); [contradiction|]. apply opp_sum. apply (Hap1 eq_refl). }
      assert (Hnz' : vadd A P <> v0). { destruct (Nat.eq_dec i 0) as [E|E]; [rewrite (Hi0 E), vadd_0_l; exact HP|auto]. }
      eapply simg_bind with (R := fun a b => pr_x a = pr_x b /\ pr_y a = pr_y b /\ pr_w a = Some (vadd A P) /\ pr_w b = None).
      + destruct (Nat.eqb_spec i 0) as [Hz|Hnn].
        * constructor. cbn. rewrite (Hi0 Hz), vadd_0_l. auto.
        * destruct sum as [sx sy sw], sum' as [sx' sy' sw']. cbn in Ex, Ey, Ew, Ew'. subst. destruct (Hap1 eq_refl). apply checked_helper_same; auto.
      + intros a b (E1 & E2 & E3 & E4). rewrite psum_cons, vadd_assoc. eapply IH; auto; try lia.
        destruct (Nat.eqb_spec (i + 1) 0); [lia|]. exact Hap.
  Qed.

  (** chunks of equal length *)
  Lemma chunks_exact_concat {A} (k : nat) : (0 < k)%nat -> forall (chunks : list (list A)) fuel, Forall (fun c => length c = k) chunks -> (length chunks <= fuel)%nat ->
    chunks_exact fuel k (concat chunks) = chunks.
  Proof.
    intros Hk. induction chunks as [|c cs IH]; intros fuel HF Hf; cbn [concat].
    - destruct fuel; cbn [chunks_exact]; [reflexivity|]. cbn [length]. destruct (Nat.ltb_spec 0 k); [reflexivity|lia].
    - apply Forall_cons_iff in HF as [Hc HF]. destruct fuel as [|fuel]; [cbn in Hf; lia|]. cbn [chunks_exact]. rewrite app_length.
      destruct (Nat.ltb_spec (length c + length (concat cs)) k); [lia|]. rewrite firstn_app, skipn_app, Hc, Nat.sub_diag. cbn [firstn skipn]. rewrite app_nil_r.
      rewrite <- Hc at 1. rewrite firstn_all, <- Hc, skipn_all. cbn [app]. rewrite Hc. f_equal. apply IH; [exact HF|cbn in Hf; lia].
  Qed.
  Lemma concat_length_const {A} (k : nat) (chunks : list (list A)) : Forall (fun c => length c = k) chunks -> length (concat chunks) = (length chunks * k)%nat.
  Proof. induction 1 as [|c cs Hc _ IH]; [reflexivity|]. cbn [concat length]. rewrite app_length, Hc, IH. lia. Qed.
  Lemma batched_unfold tied A0 L (chunks : list (list (LC F))) sl sum ws r : (0 < L)%nat -> chunks <> [] -> Forall (fun c => length c = L) chunks ->
    single_level_batched_from tied A0 (length chunks) sl sum (concat chunks) ws r =
    pbind (batched_loop sl ws 0 chunks (mkPRep (lc_var One) (lc_var One) (option_map (fun _ => v0) ws))) (fun s =>
      let t := raw_xy (vadd sum (vsmul (fN (N.of_nat (length chunks))) (sl_delta sl))) in
      re_randomize_from tied A0 (sl_tables sl) s (lc_const (fst t)) (lc_const (snd t)) r).
  Proof.
    intros HL Hne HF. unfold single_level_batched_from. rewrite (concat_length_const L) by exact HF.
    assert (Hm : (0 < length chunks)%nat) by (destruct chunks; [congruence|cbn; lia]).
    rewrite Nat.mul_comm, Nat.div_mul by lia. destruct (Nat.eqb_spec (length chunks) 0); [lia|]. destruct (Nat.eqb_spec L 0); [lia|]. cbn [orb].
    rewrite chunks_exact_concat; [reflexivity|exact HL|exact HF|nia].
  Qed.

  Lemma batched_selects w (w1 : w One = 1) tied A0 L chunks sl sum ws r : (0 < L)%nat -> chunks <> [] -> Forall (fun c => length c = L) chunks -> sl_good sl -> sw_a C = 0 ->
    wps w (single_level_batched_from tied A0 (length chunks) sl sum (concat chunks) ws r) (fun _ => exists Ps, Forall2 (selected w) Ps chunks).
  Proof.
    intros HL Hne HF Hg H0. rewrite (batched_unfold tied A0 L) by assumption. apply wps_bind.
    eapply wps_mono; [|apply (batched_loop_sound w w1 sl ws Hg H0 chunks 0 _ v0); [reflexivity|congruence]].
    intros s (Ps & HPs & _). eapply wps_mono; [|apply wps_true]. intros _ _. eauto.
  Qed.
  Lemma batched_sound w (w1 : w One = 1) L chunks sl sum ws r : (0 < L)%nat -> chunks <> [] -> Forall (fun c => length c = L) chunks -> sl_good sl -> sw_a C = 0 -> apart S ->
    let T := vadd sum (vsmul (fN (N.of_nat (length chunks))) (sl_delta sl)) in T <> v0 ->
    wps w (single_level_batched_from true v0 (length chunks) sl sum (concat chunks) ws r) (fun bits => exists (Ps : list C) (d : nat -> nat), Forall2 (selected w) Ps chunks /\ (forall n, (d n < 8)%nat) /\
      Forall2 (bits_are w) bits (map d (seq 1 (windows (S:=S)))) /\
      T = vadd (psum Ps) (vsmul (fZ (digits_int d (windows (S:=S)))) (pcB_blinding (sl_pc sl)))).
  Proof.
    intros HL Hne HF Hg H0 Hap T HT. rewrite (batched_unfold true v0 L) by assumption. apply wps_bind.
    eapply wps_mono; [|apply (batched_loop_sound w w1 sl ws Hg H0 chunks 0 _ v0); [reflexivity|congruence]].
    intros [sx sy sw] (Ps & HPs & Hs). specialize (Hs (or_intror Hne)). rewrite vadd_0_l in Hs. cbn [pr_x pr_y] in Hs. cbv zeta.
    eapply wps_mono; [|apply (rerand_sound_tied (pcB_blinding (sl_pc sl)) (sl_tables sl) w w1 _ _ sw (psum Ps)); [apply Hg|exact Hap|exact Hs]].
    intros bits (d & Hd & Hb & Ht). rewrite !lc_val_const in Ht by exact w1. fold T in Ht. destruct (coords_some _ HT) as (xt & yt & Hxy). rewrite (raw_xy_some _ _ _ Hxy) in Ht. cbn [fst snd] in Ht.
    exists Ps, d. split; [exact HPs|]. split; [exact Hd|]. split; [exact Hb|]. eapply coords_inj; eassumption.
  Qed.
  Lemma batched_complete w (w1 : w One = 1) tied A0 L chunks sl sum (Ps : list C) (r : S) ok (Q : _ -> list (Var * Var * Var) -> Prop) :
    (0 < L)%nat -> chunks <> [] -> Forall (fun c => length c = L) chunks -> sl_good sl -> sw_a C = 0 ->
    (tied = true -> A0 = v0) -> let h := pcB_blinding (sl_pc sl) in
    smooth h (windows (S:=S)) A0 (digits_of r) -> vadd A0 (vsmul r h) <> psum Ps -> vadd A0 (vsmul r h) <> vopp (psum Ps) ->
    Forall2 (selected w) Ps chunks -> sums_apart true v0 Ps ->
    vadd sum (vsmul (fN (N.of_nat (length chunks))) (sl_delta sl)) = vadd (psum Ps) (vadd A0 (vsmul r h)) -> ok One -> Forall (Forall (lc_ok ok)) chunks ->
    (forall ok' bits, ok_sub ok ok' -> Forall2 (bits_are w) bits (map (digits_of r) (seq 1 (windows (S:=S)))) -> Q ok' bits) ->
    wpc w ok (single_level_batched_from tied A0 (length chunks) sl sum (concat chunks) (Some Ps) (Some r)) Q.
  Proof.
    intros HL Hne HF Hg H0 Hti h Hsm Hn1 Hn2 Hsel Hap HR H1 Hch HQ. rewrite (batched_unfold tied A0 L) by assumption. apply wpc_bind. cbn [option_map].
    assert (Hlen : length Ps = length chunks) by exact (Forall2_len Hsel). assert (Hfn : firstn (length chunks) Ps = Ps) by (rewrite <- Hlen; apply firstn_all).
    apply (batched_loop_complete w w1 sl Ps Hg H0 chunks 0 Ps _ _ v0).
    - reflexivity.
    - lia.
    - rewrite Hfn. exact Hsel.
    - rewrite Hfn. exact Hap.
    - reflexivity.
    - congruence.
    - exact H1.
    - apply lc_ok_var, H1.
    - apply lc_ok_var, H1.
    - exact Hch.
    - rewrite Hfn, vadd_0_l. intros k1 x' y' S1 Ox Oy Hs. specialize (Hs (or_intror Hne)). cbv zeta. eapply (rerand_complete w w1 tied h (sl_tables sl) A0 r).
        * apply Hg.
        * exact Hti.
        * exact Hsm.
        * exact Hn1.
        * exact Hn2.
        * apply S1, H1.
        * exact Ox.
        * exact Oy.
        * apply lc_ok_const, S1, H1.
        * apply lc_ok_const, S1, H1.
        * exact Hs.
        * rewrite !lc_val_const by exact w1. rewrite <- HR.
          assert (HT : vadd sum (vsmul (fN (N.of_nat (length chunks))) (sl_delta sl)) <> v0).
          { rewrite HR. intros E. apply Hn2. transitivity (vadd (vopp (psum Ps)) (vadd (psum Ps) (vadd A0 (vsmul r h)))); [vring|rewrite E; vring]. }
          destruct (coords_some _ HT) as (xt & yt & Hxy). rewrite (raw_xy_some _ _ _ Hxy). exact Hxy.
        * intros ok' bits Hs' Hb. apply HQ; [|exact Hb]. eapply ok_sub_trans; eassumption.
  Qed.
  Lemma psum_nonzero : forall Ps (A : C) f, sums_apart f A Ps -> (f = false -> A <> v0) -> (f = true -> A = v0) -> Ps <> [] -> Forall (fun P => P <> v0) Ps -> vadd A (psum Ps) <> v0.
  Proof.
    induction Ps as [|P Ps IH]; intros A f Hap Hf Ht Hne HF; [congruence|]. apply Forall_cons_iff in HF as [HP HF]. cbn [sums_apart] in Hap. destruct Hap as [H1 H2].
    assert (HA : vadd A P <> v0). { destruct f; [rewrite (Ht eq_refl), vadd_0_l; exact HP|]. apply opp_sum. apply (H1 eq_refl). }
    rewrite psum_cons, vadd_assoc. destruct Ps as [|P' Ps]; [cbn [psum fold_right]; rewrite vadd_0_r; exact HA|]. apply (IH _ false); auto; discriminate.
  Qed.
  Lemma batched_same tied A0 A0' L chunks sl sum (Ps : list C) (r : S) : (0 < L)%nat -> chunks <> [] -> Forall (fun c => length c = L) chunks -> sl_good sl -> let h := pcB_blinding (sl_pc sl) in
    smooth h (windows (S:=S)) A0 (digits_of r) -> vadd A0 (vsmul r h) <> psum Ps -> vadd A0 (vsmul r h) <> vopp (psum Ps) ->
    length Ps = length chunks -> Forall (fun P => P <> v0) Ps -> sums_apart true v0 Ps ->
    simg eq (single_level_batched_from tied A0 (length chunks) sl sum (concat chunks) (Some Ps) (Some r)) (single_level_batched_from tied A0' (length chunks) sl sum (concat chunks) None None).
  Proof.
    intros HL Hne HF Hg h Hsm Hn1 Hn2 Hlen HP Hap. rewrite !(batched_unfold tied _ L) by assumption. cbn [option_map].
    assert (Hfn : firstn (length chunks) Ps = Ps) by (rewrite <- Hlen; apply firstn_all).
    eapply simg_bind; [apply (batched_loop_same sl Ps chunks 0 Ps _ _ v0)|]; try reflexivity; try congruence; try (rewrite Hfn; assumption); [lia|].
    rewrite Hfn, vadd_0_l. intros [x y wa] [x' y' wb] (E1 & E2 & E3 & E4). cbn [pr_x pr_y pr_w] in *. subst. cbv zeta. eapply rerand_same; try eassumption; [apply Hg|].
    assert (Hz : Ps <> []) by (destruct Ps; [destruct chunks; [congruence|discriminate]|discriminate]).
    pose proof (psum_nonzero Ps v0 true Hap ltac:(discriminate) ltac:(reflexivity) Hz HP) as Hs. rewrite vadd_0_l in Hs. exact Hs.
  Qed.
End SL.
