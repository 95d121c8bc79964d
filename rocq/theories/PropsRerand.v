(** * Properties of the re-randomization gadget (C34-C36)

    Throughout, [windows] is the number of windows (lambda/3 + 1 for a scalar field
    of lambda bits), [win_int m i j] the integer behind entry [j] of table [i] and
    [acc_int m d n] the sum of those integers over the windows 1..n for the digits
    [d] (RerandArith.v). *)
From Verif Require Import GadgetProofs CSProofs UtilProofs Lockstep CSMore Toy Curve ToyCurve CurveGadgets RerandMore PropsGadgets.
From Coq Require Import Lia.
Local Open Scope F_scope.

(** ** C34: the window tables decompose every scalar *)

(** [table_point ts i j P]: entry [j] of the [i]-th table (from 1) is the finite
    point [P]. *)
Definition table_point {F : Field} {S : PField} {C : SWCurve F S} (ts : list (list (list F))) (i j : nat) (P : C) : Prop :=
  exists xs ys, nth_error ts (i - 1) = Some [xs; ys] /\ coords P = Some (nth j xs 0, nth j ys 0).
(** the [i]-th 3-bit digit (from 1) of the canonical integer of [r] *)
Definition digit {S : PField} (r : S) (i : nat) : nat := N.to_nat ((pf_repr r / 8 ^ N.of_nat (i - 1)) mod 8).
Lemma digit_spec {S : PField} (r : S) i : (1 <= i)%nat -> digits_of r i = digit r i.
Proof.
  intros Hi. apply Nat2Z.inj. rewrite digits_of_spec by exact Hi. unfold digit. rewrite N_nat_Z, N2Z.inj_mod, N2Z.inj_div, N2Z.inj_pow, nat_N_Z by (try apply N.pow_nonzero; lia). reflexivity.
Qed.
Theorem C34_tables_decompose : forall (F : Field) (S : PField) (C : SWCurve F S) (h : C) ts, build_tables h = Some ts ->
  length ts = (modulus_bits S / 3 + 1)%nat /\
  forall r : S, exists es : nat -> C, (forall i, (1 <= i <= modulus_bits S / 3 + 1)%nat -> table_point ts i (digit r i) (es i)) /\
    gsum (modulus_bits S / 3 + 1) (fun i => es (i + 1)%nat) = vsmul r h.
Proof.
  intros F S C h ts H. destruct (build_tables_good h ts H) as [Hl Hg]. split; [exact Hl|]. intros r. change (modulus_bits S / 3 + 1)%nat with (windows (S:=S)).
  exists (fun i => win_pt h (windows (S:=S)) i (digits_of r i)). split.
  - intros i Hi. destruct (Hg i Hi) as (r0 & r1 & Ht & Hc). exists r0, r1. split.
    + rewrite (nth_error_nth' ts []) by lia. rewrite Ht. reflexivity.
    + rewrite <- digit_spec by lia. apply Hc. apply window_index_lt.
  - assert (E : forall n, gsum n (fun i => win_pt h (windows (S:=S)) (i + 1) (digits_of r (i + 1))) = acc_pt h (windows (S:=S)) v0 (digits_of r) n).
    { induction n as [|n IH]; cbn [gsum]; [unfold acc_pt; cbn [acc_int fZ]; rewrite vsmul_0_l, vadd_0_l; reflexivity|].
      rewrite IH. rewrite <- (acc_pt_step h (windows (S:=S)) v0 (digits_of r) (Datatypes.S n)) by lia. replace (Datatypes.S n - 1)%nat with n by lia. replace (n + 1)%nat with (Datatypes.S n) by lia. reflexivity. }
    rewrite E, acc_full by (unfold windows; lia). apply vadd_0_l.
Qed.
(** [build_tables] panics exactly when some integer behind an entry is a multiple of
    the scalar modulus (or H is infinity). *)
Theorem C34_tables_exist_iff : forall (F : Field) (S : PField) (C : SWCurve F S) (h : C), h <> v0 ->
  (build_tables h <> None <-> forall i j, (1 <= i <= windows (S:=S))%nat -> (j < 8)%nat -> (win_int (windows (S:=S)) i j mod Z.of_N (pf_mod S) <> 0)%Z).
Proof.
  intros F S C h Hh. rewrite build_tables_iff. split; intros H i j Hi Hj.
  - intros H0. apply (H i j Hi Hj). apply fZ_smul_0; assumption.
  - intros H0. apply (H i j Hi Hj). apply (fZ_smul_0 h); assumption.
Qed.
(** The scalar moduli of the curves the repository uses (Vesta and Pallas, secp256k1
    and secq256k1), and of the toy curves used in examples. *)
Definition pallas_base : N := 0x40000000000000000000000000000000224698fc094cf91b992d30ed00000001.
(* test data or vocabulary of statements, no code modelled *)
Definition pallas_scalar : N := 0x40000000000000000000000000000000224698fc0994a8dd8c46eb2100000001.
(* test data or vocabulary of statements, no code modelled *)
Definition secp_base : N := 0xfffffffffffffffffffffffffffffffffffffffffffffffffffffffefffffc2f.
(* test data or vocabulary of statements, no code modelled *)
Definition secp_scalar : N := 0xfffffffffffffffffffffffffffffffebaaedce6af48a03bbfd25e8cd0364141.
(* test data or vocabulary of statements, no code modelled *)
Definition used_moduli : list N := [pallas_base; pallas_scalar; secp_base; secp_scalar; 139%N; 163%N].
(* test data or vocabulary of statements, no code modelled *)
Definition tables_check (q : N) : bool :=
  let m := (N.to_nat (N.size q) / 3 + 1)%nat in
  forallb (fun i => forallb (fun j => negb (Z.eqb (win_int m i j mod Z.of_N q) 0)) (seq 0 8)) (seq 1 m).
Lemma used_checks : forallb tables_check used_moduli = true.
Proof. vm_compute. reflexivity. Qed.
Theorem C34_tables_exist : forall (F : Field) (S : PField) (C : SWCurve F S) (h : C), In (pf_mod S) used_moduli -> h <> v0 -> build_tables h <> None.
Proof.
  intros F S C h Hq Hh. apply C34_tables_exist_iff; [exact Hh|]. intros i j Hi Hj H0.
  pose proof used_checks as Hc. rewrite forallb_forall in Hc. specialize (Hc _ Hq). unfold tables_check in Hc. change (N.to_nat (N.size (pf_mod S)) / 3 + 1)%nat with (windows (S:=S)) in Hc.
  rewrite forallb_forall in Hc. specialize (Hc i). rewrite in_seq in Hc. specialize (Hc ltac:(lia)). rewrite forallb_forall in Hc. specialize (Hc j). rewrite in_seq in Hc. specialize (Hc ltac:(lia)).
  rewrite H0 in Hc. discriminate.
Qed.
Print Assumptions C34_tables_decompose.
Print Assumptions C34_tables_exist_iff.
Print Assumptions C34_tables_exist.

(** The toy curve has tables for every non-zero H. *)
Lemma toy_mod : In (pf_mod PF163) used_moduli. Proof. do 5 right. left. reflexivity. Qed.
Lemma k163_neq a b : (a mod 163 <> b mod 163)%Z -> k163 a <> k163 b.
Proof. intros H E. apply (f_equal (zv (p:=PM163))) in E. unfold k163 in E. rewrite !zv_mk in E. exact (H E). Qed.
Lemma k163_v0 : (v0 : TC0) = k163 0. Proof. apply fp_eq. reflexivity. Qed.
Example C34_demo : exists ts, build_tables (k163 5) = Some ts /\ length ts = 3%nat.
Proof.
  destruct (build_tables (k163 5)) as [ts|] eqn:E.
  - exists ts. split; [reflexivity|]. destruct (C34_tables_decompose _ _ TC0 _ _ E) as [H _]. exact H.
  - exfalso. revert E. apply (C34_tables_exist _ _ TC0); [exact toy_mod|]. rewrite k163_v0. apply k163_neq. discriminate.
Qed.

(** ** C35: completeness *)

(** [exceptional r]: some window is plus or minus the sum of the windows before it. *)
Theorem C35_rerandomize_complete_partial : forall (F : Field) (S : PField) (C : SWCurve F S) (V : VSpace F) (E : TrEnv V)
    (h P : C) ts r (s : PState F) x y xt yt,
  build_tables h = Some ts -> ~ exceptional r -> vsmul r h <> P -> vsmul r h <> vopp P ->
  honest s -> Forall (lc_ok (issued s)) [x; y; xt; yt] ->
  coords P = Some (lc_val (p_asg s) x, lc_val (p_asg s) y) ->
  coords (vadd P (vsmul r h)) = Some (lc_val (p_asg s) xt, lc_val (p_asg s) yt) ->
  exists s', prun E (re_randomize ts (mkPRep x y (Some P)) xt yt (Some r)) s = Some (s', tt) /\
    honest s' /\ satisfies (p_asg s') (p_cs s') /\ keeps s s'.
Proof.
  intros F S C V E h P ts r s x y xt yt Ht Hex Hne Hno Hh Hok HP HT. rewrite !Forall_cons_iff in Hok. destruct Hok as (O1 & O2 & O3 & O4 & _).
  apply build_tables_good in Ht.
  destruct (prover_complete E (re_randomize ts (mkPRep x y (Some P)) xt yt (Some r)) (fun _ _ _ => True) s Hh) as (s' & [] & R1 & R2 & R3 & _).
  - intros w Hw. unfold re_randomize, re_randomize_gen. apply wpc_bind. eapply rerand_complete; try eassumption.
    + eapply agrees_one; eassumption.
    + discriminate.
    + eapply smooth_iff; eassumption.
    + rewrite vadd_0_l. exact Hne.
    + rewrite vadd_0_l. exact Hno.
    + apply issued_one.
    + rewrite !(agrees_val w s) by assumption. exact HP.
    + rewrite vadd_0_l, !(agrees_val w s) by assumption. exact HT.
    + intros ok' bits _ _. exact I.
  - exists s'. split; [exact R1|]. split; [exact R2|]. split; [apply honest_satisfies, R2|exact R3].
Qed.
(** These conditions are exact: outside them the prover panics (whatever the target). *)
Theorem C35_rerandomize_panics : forall (F : Field) (S : PField) (C : SWCurve F S) (V : VSpace F) (E : TrEnv V) (h P : C) ts r (s : PState F) x y xt yt,
  build_tables h = Some ts -> exceptional r \/ P = v0 \/ vsmul r h = P \/ vsmul r h = vopp P ->
  prun E (re_randomize ts (mkPRep x y (Some P)) xt yt (Some r)) s = None.
Proof.
  intros F S C V E h P ts r s x y xt yt Ht Hbad. apply build_tables_good in Ht. apply (pret_panic E). unfold re_randomize, re_randomize_gen.
  eapply pret_bind; [apply (rerand_finishes E h ts false v0 r x y P xt yt Ht)|]. intros a (H1 & H2 & H3 & H4) s1 s2 b _. rewrite vadd_0_l in H3, H4.
  destruct Hbad as [(i & Hi & Hcol)|[Hb|[Hb|Hb]]]; try contradiction.
  destruct (H1 i ltac:(lia)) as [N1 N2]. rewrite acc_pt_0 in N1, N2. unfold win_pt in *. rewrite fZ_smul_opp in N2. pose proof (good_h _ _ Ht) as Hh. destruct Hcol as [H|H].
  - apply N1. apply fZ_smul_eq; [exact Hh|exact H].
  - apply N2. apply fZ_smul_eq; [exact Hh|]. rewrite <- H. f_equal. lia.
Qed.
(** At most 81 scalars are exceptional, on every curve. *)
Theorem C35_exceptional_scalars : forall S : PField, exists bad : list S, (length bad <= 81)%nat /\ forall r : S, exceptional r -> In r bad.
Proof.
  intros S. exists (map fZ (bad_ints (S:=S))). split; [rewrite map_length, bad_ints_length; lia|]. apply exceptional_bad.
Qed.
(** The property as stated is false: with the scalar 0 the prover always panics. *)
Theorem C35_rerandomize_zero_refuted : forall (F : Field) (S : PField) (C : SWCurve F S) (V : VSpace F) (E : TrEnv V) (h P : C) ts (s : PState F) x y xt yt,
  build_tables h = Some ts -> prun E (re_randomize ts (mkPRep x y (Some P)) xt yt (Some 0)) s = None.
Proof.
  intros F S C V E h P ts s x y xt yt Ht. apply (C35_rerandomize_panics F S C V E h); [exact Ht|]. left. apply zero_exceptional. eapply good_windows, build_tables_good, Ht.
Qed.
Print Assumptions C35_rerandomize_complete_partial.
Print Assumptions C35_rerandomize_panics.
Print Assumptions C35_exceptional_scalars.
Print Assumptions C35_rerandomize_zero_refuted.

(** A scalar that is not exceptional, decided by computation. *)
Definition exceptional_b (q : N) (r : N) : bool :=
  let m := (N.to_nat (N.size q) / 3 + 1)%nat in
  let d := window_index (N.to_nat (N.size q)) r in
  existsb (fun i => Z.eqb ((win_int m i (d i) - acc_int m d (i - 1)) mod Z.of_N q) 0 || Z.eqb ((win_int m i (d i) + acc_int m d (i - 1)) mod Z.of_N q) 0)%bool (seq 2 (m - 1)).
Lemma exceptional_b_spec (S : PField) (r : S) : exceptional_b (pf_mod S) (pf_repr r) = false -> ~ exceptional r.
Proof.
  intros H (i & Hi & Hcol). unfold exceptional_b in H.
  assert (H1 : exists i, In i (seq 2 (windows (S:=S) - 1)) /\
    (Z.eqb ((win_int (windows (S:=S)) i (digits_of r i) - acc_int (windows (S:=S)) (digits_of r) (i - 1)) mod Z.of_N (pf_mod S)) 0 || Z.eqb ((win_int (windows (S:=S)) i (digits_of r i) + acc_int (windows (S:=S)) (digits_of r) (i - 1)) mod Z.of_N (pf_mod S)) 0)%bool = true).
  { exists i. split; [apply in_seq; lia|]. destruct Hcol as [E|E]; rewrite E; [reflexivity|apply Bool.orb_true_r]. }
  apply existsb_exists in H1. change (N.to_nat (N.size (pf_mod S)) / 3 + 1)%nat with (windows (S:=S)) in H. unfold digits_of, modulus_bits in H1. rewrite H1 in H. discriminate.
Qed.
(** prover state with nothing committed, points given as constants *)
Definition toy_P : TC0 := k163 3.
(* test data or vocabulary of statements, no code modelled *)
Definition toy_h : TC0 := k163 5.
(* test data or vocabulary of statements, no code modelled *)
Definition toy_r : PF163 := fp_mk (p:=PM163) 77.
Lemma toy_tables : exists ts, build_tables toy_h = Some ts.
Proof. destruct C34_demo as (ts & H & _). exists ts. exact H. Qed.
Lemma fp_mul_mk {p : PrimeMod} a b : fp_mul p (fp_mk (p:=p) a) (fp_mk b) = fp_mk (a * b).
Proof. apply fp_eq. unfold fp_mul. rewrite !zv_mk. rewrite <- Zmult_mod. reflexivity. Qed.
Lemma fp_add_mk {p : PrimeMod} a b : fp_add p (fp_mk (p:=p) a) (fp_mk b) = fp_mk (a + b).
Proof. apply fp_eq. unfold fp_add. rewrite !zv_mk. rewrite <- Zplus_mod. reflexivity. Qed.
Lemma fp_opp_mk {p : PrimeMod} a : fp_opp p (fp_mk (p:=p) a) = fp_mk (- a).
Proof. apply fp_eq. unfold fp_opp. rewrite !zv_mk. rewrite <- !Z.sub_0_l, Zminus_mod_idemp_r. reflexivity. Qed.
Lemma toy_mul a b : vsmul (fp_mk (p:=PM163) a : PF163) (k163 b) = k163 (a * b).
Proof. exact (fp_mul_mk (p:=PM163) a b). Qed.
Lemma toy_add a b : vadd (k163 a) (k163 b) = k163 (a + b).
Proof. exact (fp_add_mk (p:=PM163) a b). Qed.
Lemma toy_opp a : vopp (k163 a) = k163 (- a).
Proof. exact (fp_opp_mk (p:=PM163) a). Qed.
Lemma toy_not_exceptional : ~ exceptional toy_r.
Proof. apply exceptional_b_spec. vm_compute. reflexivity. Qed.
(** The hypotheses of [C35_rerandomize_complete_partial] hold for P = 3, H = 5, r = 77
    on the toy curve. *)
Example C35_demo : exists ts x y xt yt s', build_tables toy_h = Some ts /\
  coords toy_P = Some (x, y) /\ coords (vadd toy_P (vsmul toy_r toy_h)) = Some (xt, yt) /\
  prun E139 (re_randomize ts (mkPRep (lc_const x) (lc_const y) (Some toy_P)) (lc_const xt) (lc_const yt) (Some toy_r)) (p_new []) = Some (s', tt) /\ honest s'.
Proof.
  destruct toy_tables as (ts & Hts).
  assert (HP : toy_P <> v0) by (rewrite k163_v0; apply k163_neq; discriminate).
  assert (HT : vadd toy_P (vsmul toy_r toy_h) <> v0) by (unfold toy_P, toy_h, toy_r; rewrite toy_mul, toy_add, k163_v0; apply k163_neq; discriminate).
  destruct (coords_some _ HP) as (x & y & Hxy). destruct (coords_some _ HT) as (xt & yt & Hxyt).
  destruct (C35_rerandomize_complete_partial _ _ TC0 (RegV PF139) E139 toy_h toy_P ts toy_r (p_new []) (lc_const x) (lc_const y) (lc_const xt) (lc_const yt) Hts toy_not_exceptional) as (s' & R1 & R2 & _).
  - unfold toy_P, toy_h, toy_r. rewrite toy_mul. apply k163_neq. discriminate.
  - unfold toy_P, toy_h, toy_r. rewrite toy_mul, toy_opp. apply k163_neq. discriminate.
  - apply honest_new.
  - repeat (constructor; [apply new_const|]). constructor.
  - rewrite !new_val. exact Hxy.
  - rewrite !new_val. exact Hxyt.
  - exists ts, x, y, xt, yt, s'. auto 6.
Qed.

(** ** C36: soundness *)

(** The property is false.  For every curve, H, commitment P and all but at most
    2 * windows + 1 target points T, the verifier's circuit for "T is a
    re-randomization of P" is satisfiable with all window digits 0 - whatever T is.
    The first accumulator is not constrained. *)
Theorem C36_any_target_refuted : forall (F : Field) (S : PField) (C : SWCurve F S) (V : VSpace F) (E : TrEnv V) pc g tr (h P : C) ts,
  build_tables h = Some ts -> P <> v0 ->
  exists missed : list C, (length missed <= 2 * windows (S:=S) + 1)%nat /\
  forall T, ~ In T missed ->
  forall (s : PState F) (t : VState V) x y xt yt, session E pc g tr s t -> honest s -> Forall (lc_ok (issued s)) [x; y; xt; yt] ->
  coords P = Some (lc_val (p_asg s) x, lc_val (p_asg s) y) -> coords T = Some (lc_val (p_asg s) xt, lc_val (p_asg s) yt) ->
  exists t' bits w, 
    vrun E (re_randomize_bits (C:=C) false ts (mkPRep x y None) xt yt None) t = Some (t', bits) /\
    vrun E (re_randomize (C:=C) ts (mkPRep x y None) xt yt None) t = Some (t', tt) /\
    satisfies w (v_cs t') /\ agrees w s /\ length bits = windows (S:=S) /\ Forall (fun '(b0, b1, b2) => w b0 = 0 /\ w b1 = 0 /\ w b2 = 0) bits.
Proof.
  intros F S C V E pc g tr h P ts Hts HP0. pose proof (build_tables_good _ _ Hts) as Hgt. pose proof (good_windows _ _ Hgt) as Hm.
  exists (missed h P). split; [rewrite missed_length; lia|]. intros T HT s t x y xt yt Hses Hh Hok HP HTc.
  rewrite !Forall_cons_iff in Hok. destruct Hok as (O1 & O2 & O3 & O4 & _). destruct (cheat_smooth h ts P T Hgt HT) as (Hsm & Hne & Hno).
  set (p := re_randomize_from false (vsub T P) ts (mkPRep x y (Some P)) xt yt (Some (0 : S))).
  destruct (prover_complete E p (fun w _ bits => Forall2 (bits_are w) bits (map (digits_of (0 : S)) (seq 1 (windows (S:=S))))) s Hh) as (s' & bits & R1 & R2 & R3 & ok & _ & R4).
  { intros w Hw. eapply rerand_complete; try eassumption.
    - eapply agrees_one; eassumption.
    - discriminate.
    - apply issued_one.
    - rewrite !(agrees_val w s) by assumption. exact HP.
    - rewrite !(agrees_val w s) by assumption. rewrite <- HTc. f_equal. apply cheat_target.
    - intros ok' bits _ Hb. exact Hb. }
  assert (Hsim : simg eq p (re_randomize_bits false ts (mkPRep x y (None : option C)) xt yt None)) by (eapply rerand_same; eassumption).
  destruct (session_agree E pc g tr _ _ Hses) as [Hg Ha].
  destruct (lockstep_prun E pc g p _ _ _ s' bits (simg_same _ _ Hsim) Hg Ha R1) as (t' & Ht & Hag).
  exists t', bits, (p_asg s'). split; [exact Ht|]. split; [|split; [|split; [|split]]].
  - unfold re_randomize, re_randomize_gen. rewrite vrun_bind, Ht. reflexivity.
  - rewrite <- (ag_cs _ _ _ _ Hag). apply honest_satisfies, R2.
  - intros v Hv. apply R3. exact Hv.
  - rewrite (Forall2_len R4), map_length, seq_length. reflexivity.
  - assert (Hz : Forall (fun d => d = 0%nat) (map (digits_of (0 : S)) (seq 1 (windows (S:=S))))).
    { apply Forall_forall. intros d Hd. apply in_map_iff in Hd as (i & <- & Hi). apply in_seq in Hi. rewrite digit_spec by lia. unfold digit.
      replace (pf_repr (0 : S)) with 0%N; [rewrite N.div_0_l by (apply N.pow_nonzero; lia); reflexivity|]. change (0 : S) with (fN 0 : S). rewrite pf_repr_of. symmetry. apply N.mod_0_l. pose proof (pf_mod_pos (S:=S)). lia. }
    clear - R4 Hz. induction R4 as [|bs d bits ds Hb _ IH]; [constructor|]. apply Forall_cons_iff in Hz as [-> Hz]. constructor; [|apply IH; exact Hz].
    destruct bs as [[b0 b1] b2]. exact Hb.
Qed.

(** What holds once the missing constraint is there ([tied = true]: the first
    accumulator is the first looked-up point; everything else as in the code).
    Missing for the property: this constraint in the code; moduli where a window can
    equal the accumulator ([apart] fails, see [C36_pasta_not_apart]). *)
Theorem C36_rerandomize_sound_partial : forall (F : Field) (S : PField) (C : SWCurve F S) (V : VSpace F) (E : TrEnv V) (h P : C) ts
    (t t' : VState V) bits x y wit xt yt r w cs,
  build_tables h = Some ts -> (15 * 8 ^ Z.of_nat (windows (S:=S) - 2) <= Z.of_N (pf_mod S))%Z ->
  vrun E (re_randomize_bits true ts (mkPRep x y (wit : option C)) xt yt r) t = Some (t', bits) -> incl (v_cs t') cs -> satisfies w cs ->
  coords P = Some (lc_val w x, lc_val w y) ->
  exists d : nat -> nat, (forall i, (d i < 8)%nat) /\ Forall2 (bits_are w) bits (map d (seq 1 (windows (S:=S)))) /\
    coords (vadd P (vsmul (fZ (digits_int d (windows (S:=S)))) h)) = Some (lc_val w xt, lc_val w yt).
Proof.
  intros F S C V E h P ts t t' bits x y wit xt yt r w cs Hts Hq H Hi Hs HP.
  apply (sound_run E (re_randomize_bits true ts (mkPRep x y wit) xt yt r) w (fun bits => exists d : nat -> nat, (forall i, (d i < 8)%nat) /\
    Forall2 (bits_are w) bits (map d (seq 1 (windows (S:=S)))) /\ coords (vadd P (vsmul (fZ (digits_int d (windows (S:=S)))) h)) = Some (lc_val w xt, lc_val w yt)) t t' bits cs); auto.
  intros w1. apply rerand_sound_tied; [exact w1|apply build_tables_good; exact Hts|apply apart_of_modulus; exact Hq|exact HP].
Qed.
(** The modulus condition holds for secp256k1, secq256k1 and the toy curves. *)
Theorem C36_modulus_condition : forall S : PField, In (pf_mod S) [secp_base; secp_scalar; 139%N; 163%N] ->
  (15 * 8 ^ Z.of_nat (windows (S:=S) - 2) <= Z.of_N (pf_mod S))%Z.
Proof.
  intros S H. unfold windows, modulus_bits. apply Z.leb_le.
  cbn [In] in H. destruct H as [H|[H|[H|[H|[]]]]]; rewrite <- H; vm_compute; reflexivity.
Qed.
(** For the Pasta moduli it fails, and there are digits for which window 85 equals
    the accumulator. *)
Theorem C36_pasta_not_apart : forall S : PField, In (pf_mod S) [pallas_base; pallas_scalar] -> ~ apart S.
Proof.
  intros S H Hap.
  set (q := Z.of_N (pf_mod S)).
  set (low := (2 * 8 ^ 84 + 8 ^ 85 - eights 84 - 2 * q)%Z).
  set (d := fun i : nat => if (i =? 85)%nat then 2%nat else Z.to_nat ((low / 8 ^ Z.of_nat (i - 1)) mod 8)).
  assert (Hd : forall k, (d k < 8)%nat).
  { intros k. subst d. cbv beta. destruct (k =? 85)%nat; [lia|]. pose proof (Z.mod_pos_bound (low / 8 ^ Z.of_nat (k - 1)) 8 ltac:(lia)). lia. }
  assert (Hm : windows (S:=S) = 86%nat) by (unfold windows, modulus_bits; cbn [In] in H; destruct H as [H|[H|[]]]; rewrite <- H; vm_compute; reflexivity).
  apply (Hap d 85%nat Hd); [lia|]. rewrite Hm. subst d low q. cbn [In] in H.
  destruct H as [H|[H|[]]]; rewrite <- H; vm_compute; reflexivity.
Qed.
(** Concrete counterexample on the toy curve: P = 3, H = 5, T = 100; every digit is
    0, so the property would demand T = P. *)
Theorem C36_rerandomize_sound_refuted : exists (ts : list (list (list PF139))) (T : TC0) x y xt yt t' bits w,
  build_tables toy_h = Some ts /\ coords toy_P = Some (x, y) /\ coords T = Some (xt, yt) /\
  vrun E139 (re_randomize_bits (C:=TC0) false ts (mkPRep (lc_const x) (lc_const y) None) (lc_const xt) (lc_const yt) None) (v_new []) = Some (t', bits) /\
  satisfies w (v_cs t') /\ length bits = 3%nat /\ Forall (fun '(b0, b1, b2) => w b0 = 0 /\ w b1 = 0 /\ w b2 = 0) bits /\ T <> toy_P.
Proof.
  destruct toy_tables as (ts & Hts).
  assert (HP0 : toy_P <> v0) by (rewrite k163_v0; apply k163_neq; discriminate).
  destruct (C36_any_target_refuted _ _ TC0 (RegV PF139) E139 (toy_pc PM139) (toy_gens PM139 1 1) [] toy_h toy_P ts Hts HP0) as (bad & Hlen & Hall).
  assert (HT : exists z, (100 <= z < 110)%Z /\ ~ In (k163 z) bad).
  { set (cand := map k163 [100; 101; 102; 103; 104; 105; 106; 107; 108; 109]%Z).
    destruct (Exists_dec (fun T : TC0 => ~ In T bad) cand) as [He|Hne].
    - intros T. destruct (in_dec (f_eq_dec (F:=PF163)) T bad) as [H|H]; [right; intros H'; exact (H' H)|left; exact H].
    - apply Exists_exists in He as (T & HT & Hn). apply in_map_iff in HT as (z & <- & Hz). exists z. split; [|exact Hn].
      cbn [In] in Hz. lia.
    - exfalso. assert (Hnd : NoDup cand).
      { repeat constructor; cbn [map In cand]; intros Hin; repeat destruct Hin as [Hin|Hin]; try contradiction; symmetry in Hin; revert Hin; apply k163_neq; discriminate. }
      assert (Hincl : incl cand bad).
      { intros T HT. destruct (in_dec (f_eq_dec (F:=PF163)) T bad) as [H|H]; [exact H|]. exfalso. apply Hne. apply Exists_exists. exists T. auto. }
      pose proof (NoDup_incl_length Hnd Hincl) as Hl. change (length cand) with 10%nat in Hl. change (windows (S:=PF163)) with 3%nat in Hlen. lia. }
  destruct HT as (z & Hz & Hn).
  assert (HT0 : k163 z <> v0) by (rewrite k163_v0; apply k163_neq; rewrite !Z.mod_small; lia).
  destruct (coords_some _ HP0) as (x & y & Hxy). destruct (coords_some _ HT0) as (xt & yt & Hxyt).
  destruct (Hall (k163 z) Hn (p_new []) (v_new []) (lc_const x) (lc_const y) (lc_const xt) (lc_const yt)) as (t' & bits & w & R1 & _ & R2 & _ & R3 & R4).
  - apply ses_new.
  - apply honest_new.
  - repeat (constructor; [apply new_const|]). constructor.
  - rewrite !new_val. exact Hxy.
  - rewrite !new_val. exact Hxyt.
  - exists ts, (k163 z), x, y, xt, yt, t', bits, w. split; [exact Hts|]. split; [exact Hxy|]. split; [exact Hxyt|]. split; [exact R1|]. split; [exact R2|].
    split; [exact R3|]. split; [exact R4|]. apply k163_neq. rewrite !Z.mod_small; lia.
Qed.
Print Assumptions C36_any_target_refuted.
Print Assumptions C36_rerandomize_sound_partial.
Print Assumptions C36_modulus_condition.
Print Assumptions C36_pasta_not_apart.
Print Assumptions C36_rerandomize_sound_refuted.

(** The hypotheses of [C36_rerandomize_sound_partial] are met by an honest run. *)
Example C36_tied_demo : exists ts x y xt yt (t' : VState (RegV PF139)) bits w, build_tables toy_h = Some ts /\ coords toy_P = Some (x, y) /\
  vrun E139 (re_randomize_bits (C:=TC0) true ts (mkPRep (lc_const x) (lc_const y) None) (lc_const xt) (lc_const yt) None) (v_new []) = Some (t', bits) /\
  satisfies w (v_cs t') /\ Forall2 (bits_are w) bits (map (digit toy_r) [1; 2; 3]%nat).
Proof.
  destruct toy_tables as (ts & Hts). pose proof (build_tables_good _ _ Hts) as Hgt.
  assert (HP : toy_P <> v0) by (rewrite k163_v0; apply k163_neq; discriminate).
  assert (HT : vadd toy_P (vsmul toy_r toy_h) <> v0) by (unfold toy_P, toy_h, toy_r; rewrite toy_mul, toy_add, k163_v0; apply k163_neq; discriminate).
  assert (N1 : vadd v0 (vsmul toy_r toy_h) <> toy_P) by (rewrite vadd_0_l; unfold toy_P, toy_h, toy_r; rewrite toy_mul; apply k163_neq; discriminate).
  assert (N2 : vadd v0 (vsmul toy_r toy_h) <> vopp toy_P) by (rewrite vadd_0_l; unfold toy_P, toy_h, toy_r; rewrite toy_mul, toy_opp; apply k163_neq; discriminate).
  assert (Hsm : smooth toy_h (windows (S:=PF163)) v0 (digits_of toy_r)) by (eapply smooth_iff; [exact Hgt|exact toy_not_exceptional]).
  destruct (coords_some _ HP) as (x & y & Hxy). destruct (coords_some _ HT) as (xt & yt & Hxyt).
  destruct (prover_complete E139 (re_randomize_bits true ts (mkPRep (lc_const x) (lc_const y) (Some toy_P)) (lc_const xt) (lc_const yt) (Some toy_r))
    (fun w _ bits => Forall2 (bits_are w) bits (map (digits_of toy_r) (seq 1 (windows (S:=PF163))))) (p_new []) (honest_new [])) as (s' & bits & R1 & R2 & _ & ok & _ & R4).
  - intros w Hw. eapply rerand_complete; try eassumption; try apply new_const.
    + eapply agrees_one; eassumption.
    + reflexivity.
    + apply issued_one.
    + rewrite !(agrees_val w (p_new [])), !new_val by (try exact Hw; apply new_const). exact Hxy.
    + rewrite vadd_0_l, !(agrees_val w (p_new [])), !new_val by (try exact Hw; apply new_const). exact Hxyt.
    + intros ok' bits _ Hb. exact Hb.
  - destruct (toy_gadget (re_randomize_bits true ts (mkPRep (lc_const x) (lc_const y) (Some toy_P)) (lc_const xt) (lc_const yt) (Some toy_r)) (re_randomize_bits true ts (mkPRep (lc_const x) (lc_const y) (None : option TC0)) (lc_const xt) (lc_const yt) None) s' bits) with (2 := R1) as (t' & w & T1 & T2 & T3); [|exact R2|].
    + apply simg_same. eapply rerand_same; eassumption.
    + exists ts, x, y, xt, yt, t', bits, w. split; [exact Hts|]. split; [exact Hxy|]. split; [exact T1|]. split; [exact T2|]. rewrite T3.
      change (map (digit toy_r) [1; 2; 3]%nat) with (map (digit toy_r) (seq 1 (windows (S:=PF163)))). erewrite map_ext_in; [exact R4|]. intros i Hi. apply in_seq in Hi. symmetry. apply digit_spec. lia.
Qed.
