(** * Properties of the field-level gadgets (C27-C33)

    Soundness: [t'] is the verifier after the gadget, [cs] any circuit containing
    its constraints (the surrounding circuit), [w] any assignment satisfying it.
    Completeness: [s] is a prover state whose constraints all hold ([honest]) and
    in which the variables of the linear combinations used are available. *)
From Verif Require Import GadgetProofs CSProofs UtilProofs Lockstep CSMore Toy Curve ToyCurve CurveGadgets RerandArith.
Local Open Scope F_scope.

Lemma satisfies_incl {F : Field} (w : Var -> F) a b : incl a b -> satisfies w b -> satisfies w a.
Proof.
  intros Hi (H1 & H2 & H3). split; [exact H1|]. split; [exact H2|]. rewrite Forall_forall in *. intros lc Hlc. apply H3, Hi, Hlc.
Qed.
Lemma sound_run {F : Field} {V : VSpace F} (E : TrEnv V) {A} (p : Prog F A) w Q (t t' : VState V) a cs :
  (w One = 1 -> wps w p Q) -> vrun E p t = Some (t', a) -> incl (v_cs t') cs -> satisfies w cs -> Q a.
Proof. intros HW H Hi Hs. eapply (wps_sound E p w Q t t' a); [intros H1 _; exact (HW H1)|exact H|eapply satisfies_incl; eassumption]. Qed.

Lemma sat_of_honest {F : Field} (s : PState F) cs : honest s -> p_cs s = cs -> exists w, satisfies w cs.
Proof. intros H <-. exists (p_asg s). apply honest_satisfies, H. Qed.

(** A concrete prover state: [x] committed as [Committed 0]. *)
Definition ex_s (x : Z) : PState F101 := fst (p_commit E101 pc101 (p_new []) (z101 x) (z101 1)).
Lemma ex_s_honest x : honest (ex_s x).
Proof. split; [apply (p_commit_inv E101 pc101), p_new_inv|constructor]. Qed.
Lemma ex_s_issued x : issued (ex_s x) (Committed 0).
Proof. split; [discriminate|]. intros i Hi. discriminate Hi. Qed.
Lemma ex_s_ok x : lc_ok (F:=F101) (issued (ex_s x)) (lc_var (Committed 0)).
Proof. apply lc_ok_var, ex_s_issued. Qed.
Lemma ex_s_const x c : lc_ok (F:=F101) (issued (ex_s x)) (lc_const c).
Proof. apply lc_ok_const, issued_one. Qed.
Lemma ex_s_val x : lc_val (p_asg (ex_s x)) (lc_var (Committed 0)) = z101 x.
Proof. rewrite lc_val_var. reflexivity. Qed.
(* test data or vocabulary of statements, no code modelled *)
Definition ex_t (x : Z) : VState (RegV F101) := fst (v_commit E101 (v_new []) (pc_commit pc101 (z101 x) (z101 1))).
Lemma ex_session x : session E101 pc101 g101 [] (ex_s x) (ex_t x).
Proof. eapply (ses_commit E101 pc101 g101 [] _ _ (z101 x) (z101 1)); [apply ses_new|reflexivity]. Qed.
(** From a successful honest prover run to a satisfiable verifier circuit. *)
Lemma demo_sat {A} (p p' : Prog F101 A) x s' a : same_gadget p p' -> prun E101 p (ex_s x) = Some (s', a) -> honest s' ->
  exists t' w, vrun E101 p' (ex_t x) = Some (t', a) /\ satisfies w (v_cs t').
Proof.
  intros Hsg Hp Hh. destruct (session_agree E101 pc101 g101 [] _ _ (ex_session x)) as [Hg Ha].
  destruct (lockstep_prun E101 pc101 g101 p p' _ _ s' a Hsg Hg Ha Hp) as (t' & Ht & Hag). exists t', (p_asg s'). split; [exact Ht|].
  rewrite <- (ag_cs _ _ _ _ Hag). apply honest_satisfies, Hh.
Qed.

(** ** C27: the range proof is sound *)

Theorem C27_range_sound : forall (F : Field) (V : VSpace F) (E : TrEnv V) dbg v q n (t t' : VState V) r w cs,
  vrun E (range_proof dbg v q n) t = Some (t', r) -> incl (v_cs t') cs -> satisfies w cs ->
  exists k : N, (k < 2 ^ N.of_nat n)%N /\ lc_val w v = fN k.
Proof. intros. eapply (sound_run E (range_proof dbg v q n) w (fun _ => _)); [|eassumption..]. intros w1. apply range_sound. exact w1. Qed.
(** For a prime field: the canonical integer of the value is below 2^n. *)
Theorem C27_range_sound_repr : forall (F : PField) (V : VSpace F) (E : TrEnv V) dbg v q n (t t' : VState V) r w cs,
  vrun E (range_proof dbg v q n) t = Some (t', r) -> incl (v_cs t') cs -> satisfies w cs -> (pf_repr (lc_val w v) < 2 ^ N.of_nat n)%N.
Proof.
  intros F V E dbg v q n t t' r w cs H Hi Hs. destruct (C27_range_sound F V E dbg v q n t t' r w cs H Hi Hs) as (k & Hk & ->).
  rewrite pf_repr_of. eapply N.le_lt_trans; [apply N.mod_le; pose proof (pf_mod_pos (S:=F)); lia|exact Hk].
Qed.
Print Assumptions C27_range_sound.
Print Assumptions C27_range_sound_repr.

(** ** C28: the range proof is complete, and exact *)

Lemma range_total {F : Field} {V : VSpace F} (E : TrEnv V) {n} dbg v q m (s : PState F) :
  honest_from n s -> lc_ok (issued s) v -> (m <= 64)%nat -> (q < 2 ^ N.of_nat m)%N -> lc_val (p_asg s) v = fN q ->
  exists s', prun E (range_proof dbg v (Some q) m) s = Some (s', Ok tt) /\ honest_from n s' /\ keeps s s'.
Proof.
  intros Hh Hv Hm Hq Hval.
  destruct (prover_complete E (range_proof dbg v (Some q) m) (fun _ _ r => r = Ok tt) s Hh) as (s' & r & H1 & H2 & H3 & ok & _ & ->).
  - intros w Hw. apply range_complete; auto using issued_one. eapply agrees_one; eassumption. rewrite (agrees_val w s v Hw Hv). exact Hval.
  - exists s'. auto.
Qed.
Theorem C28_range_complete : forall (F : Field) (V : VSpace F) (E : TrEnv V) dbg v q n (s : PState F),
  honest s -> lc_ok (issued s) v -> (n <= 64)%nat -> (q < 2 ^ N.of_nat n)%N -> lc_val (p_asg s) v = fN q ->
  exists s', prun E (range_proof dbg v (Some q) n) s = Some (s', Ok tt) /\ honest s' /\ satisfies (p_asg s') (p_cs s') /\ keeps s s'.
Proof.
  intros F V E dbg v q n s Hh Hv Hn Hq Hval.
  destruct (range_total E dbg v q n s Hh Hv Hn Hq Hval) as (s' & H1 & H2 & H3).
  exists s'. split; [exact H1|]. split; [exact H2|]. split; [apply honest_satisfies, H2|exact H3].
Qed.
(** Exactly when the prover's assignment satisfies the constraints: the value must
    be the witness reduced modulo 2^n. *)
Theorem C28_range_exact : forall (F : Field) (V : VSpace F) (E : TrEnv V) dbg v q n (s s' : PState F) r,
  honest s -> lc_ok (issued s) v -> (n <= 64)%nat -> prun E (range_proof dbg v (Some q) n) s = Some (s', r) ->
  (satisfies (p_asg s') (p_cs s') <-> lc_val (p_asg s) v = fN (q mod 2 ^ N.of_nat n)).
Proof.
  intros F V E dbg v q n s s' r Hh Hv Hn Hp. split.
  - intros Hs. destruct (prun_inv E _ _ _ _ (proj1 Hh) Hp) as [_ He].
    rewrite <- (keeps_val s s' v (ext_keeps s s' He) Hv).
    eapply (wpx_sound E _ (fun _ => lc_val (p_asg s') v = fN (q mod 2 ^ N.of_nat n)) s s' r); [apply Hh|exact Hp|exact Hs|]. apply range_exact. exact Hn.
  - intros Hval. destruct (prover_complete E (range_proof dbg v (Some q) n) (fun _ _ r => r = Ok tt) s Hh) as (s1 & r1 & H1 & H2 & H3 & _).
    + intros w Hw. apply range_complete_mod; auto using issued_one. eapply agrees_one; eassumption. rewrite (agrees_val w s v Hw Hv). exact Hval.
    + rewrite Hp in H1. apply Some_inj in H1. injection H1 as <- _. apply honest_satisfies, H2.
Qed.
(** In a prime field with more than 64 bits: a u64 witness of at least 2^n, or a
    value different from the (small enough) witness, leaves a constraint unsatisfied. *)
Theorem C28_range_rejects : forall (F : PField) (V : VSpace F) (E : TrEnv V) dbg v q n (s s' : PState F) r,
  honest s -> lc_ok (issued s) v -> (n <= 64)%nat -> prun E (range_proof dbg v (Some q) n) s = Some (s', r) ->
  (2 ^ 64 <= pf_mod F)%N -> (q < 2 ^ 64)%N ->
  ((2 ^ N.of_nat n <= q)%N /\ lc_val (p_asg s) v = fN q) \/ ((q < 2 ^ N.of_nat n)%N /\ lc_val (p_asg s) v <> fN q) ->
  ~ satisfies (p_asg s') (p_cs s').
Proof.
  intros F V E dbg v q n s s' r Hh Hv Hn Hp Hm Hq Hcase Hs. apply (C28_range_exact F V E dbg v q n s s' r Hh Hv Hn Hp) in Hs.
  assert (Hlt : (q mod 2 ^ N.of_nat n < 2 ^ N.of_nat n)%N) by (apply N.mod_upper_bound, N.pow_nonzero; lia).
  assert (Hle : (2 ^ N.of_nat n <= 2 ^ 64)%N) by (apply N.pow_le_mono_r; lia).
  destruct Hcase as [[Hge Hval]|[Hlt' Hval]].
  - rewrite Hval in Hs. apply (f_equal pf_repr) in Hs. rewrite !pf_repr_of in Hs.
    rewrite (N.mod_small q (pf_mod F)) in Hs by (eapply N.lt_le_trans; eassumption).
    rewrite (N.mod_small (q mod _) (pf_mod F)) in Hs by (eapply N.lt_le_trans; [exact Hlt|]; etransitivity; eassumption).
    rewrite <- Hs in Hlt. apply N.lt_nge in Hlt. contradiction.
  - apply Hval. rewrite Hs, N.mod_small by exact Hlt'. reflexivity.
Qed.
Print Assumptions C28_range_complete.
Print Assumptions C28_range_exact.
Print Assumptions C28_range_rejects.

Example C28_demo : exists s', prun E101 (range_proof true (lc_var (Committed 0)) (Some 11%N) 4) (ex_s 11) = Some (s', Ok tt) /\ honest s'.
Proof.
  destruct (C28_range_complete F101 (RegV F101) E101 true (lc_var (Committed 0)) 11%N 4 (ex_s 11) (ex_s_honest 11) (ex_s_ok 11)) as (s' & H1 & H2 & _).
  - lia.
  - reflexivity.
  - rewrite ex_s_val. apply feqb_true. vm_compute. reflexivity.
  - eauto.
Qed.
(** the same witness with a wrong value, and a witness of 2^n *)
Example C28_demo_wrong : exists s1 r1 s2 r2,
  prun E101 (range_proof true (lc_var (Committed 0)) (Some 11%N) 4) (ex_s 12) = Some (s1, r1) /\ ~ satisfies (p_asg s1) (p_cs s1) /\
  prun E101 (range_proof true (lc_var (Committed 0)) (Some 16%N) 4) (ex_s 16) = Some (s2, r2) /\ ~ satisfies (p_asg s2) (p_cs s2).
Proof.
  destruct (is_some_ex (prun E101 (range_proof true (lc_var (Committed 0)) (Some 11%N) 4) (ex_s 12)) ltac:(vm_compute; reflexivity)) as [[s1 r1] H1].
  destruct (is_some_ex (prun E101 (range_proof true (lc_var (Committed 0)) (Some 16%N) 4) (ex_s 16)) ltac:(vm_compute; reflexivity)) as [[s2 r2] H2].
  exists s1, r1, s2, r2. split; [exact H1|]. split; [|split; [exact H2|]].
  - intros Hs. apply (C28_range_exact F101 (RegV F101) E101 true _ _ 4 _ _ _ (ex_s_honest 12) (ex_s_ok 12) ltac:(lia) H1) in Hs.
    rewrite ex_s_val in Hs. apply feqb_true in Hs. vm_compute in Hs. discriminate.
  - intros Hs. apply (C28_range_exact F101 (RegV F101) E101 true _ _ 4 _ _ _ (ex_s_honest 16) (ex_s_ok 16) ltac:(lia) H2) in Hs.
    rewrite ex_s_val in Hs. apply feqb_true in Hs. vm_compute in Hs. discriminate.
Qed.
Example C27_demo : exists t' w, vrun E101 (range_proof true (lc_var (Committed 0)) None 4) (ex_t 11) = Some (t', Ok tt) /\ satisfies w (v_cs t').
Proof.
  destruct C28_demo as (s' & H1 & H2). eapply demo_sat; [|exact H1|exact H2]. apply simg_same, range_loop_same.
Qed.
(** A field and an environment with more than 64 bits exist: the hypotheses of
    [C28_range_rejects] on the modulus hold for the moduli of the four curves. *)
Example C28_demo_moduli : forallb (N.leb (2 ^ 64)) [
  0x40000000000000000000000000000000224698fc094cf91b992d30ed00000001; 0x40000000000000000000000000000000224698fc0994a8dd8c46eb2100000001;
  0xFFFFFFFFFFFFFFFFFFFFFFFFFFFFFFFEBAAEDCE6AF48A03BBFD25E8CD0364141; 0xFFFFFFFFFFFFFFFFFFFFFFFFFFFFFFFFFFFFFFFFFFFFFFFFFFFFFFFEFFFFFC2F]%N = true.
Proof. reflexivity. Qed.
(** Shifts of 64 bits and more: with overflow checks the prover panics. *)
Theorem C28_range_wide_panics : forall (F : Field) (V : VSpace F) (E : TrEnv V) v q n (s : PState F),
  (64 < n)%nat -> honest s -> prun E (range_proof true v (Some q) n) s = None.
Proof.
  intros F V E v q n s Hn [Hg _]. unfold range_proof.
  assert (Hloop : forall k i e v s, (i <= 64 < i + k)%nat -> prun E (range_loop (F:=F) true (Some q) k i e v) s = None).
  { induction k as [|k IH]; intros i e v0 s0 Hi; [lia|]. cbn [range_loop]. unfold u64_bit. destruct (Nat.ltb_spec i 64) as [Hlt|Hge].
    - cbn [prun p_allocate_multiplier]. apply IH. lia.
    - reflexivity. }
  apply Hloop. lia.
Qed.
Print Assumptions C28_range_wide_panics.
Example C28_wide_demo : prun E101 (range_proof true (lc_var (Committed 0)) (Some 11%N) 65) (ex_s 11) = None.
Proof. apply C28_range_wide_panics; [lia|apply ex_s_honest]. Qed.

(** ** C29: select proves membership *)

Theorem C29_select_sound : forall (F : Field) (V : VSpace F) (E : TrEnv V) x xs (t t' : VState V) r w cs,
  vrun E (select x xs) t = Some (t', r) -> incl (v_cs t') cs -> satisfies w cs ->
  In (lc_val w x) (map (lc_val w) xs).
Proof.
  intros F V E x xs t t' r w cs H Hi Hs. apply in_map_iff.
  assert (HE : Exists (fun xi => lc_val w xi = lc_val w x) xs).
  { eapply (sound_run E (select x xs) w (fun _ => _)); [|eassumption..]. intros _. apply select_sound. }
  apply Exists_exists in HE. destruct HE as (xi & H1 & H2). eauto.
Qed.
Theorem C29_select_complete : forall (F : Field) (V : VSpace F) (E : TrEnv V) x xs (s : PState F),
  honest s -> lc_ok (issued s) x -> Forall (lc_ok (issued s)) xs ->
  In (lc_val (p_asg s) x) (map (lc_val (p_asg s)) xs) ->
  exists s', prun E (select x xs) s = Some (s', tt) /\ honest s' /\ satisfies (p_asg s') (p_cs s') /\ keeps s s'.
Proof.
  intros F V E x xs s Hh Hx Hxs Hin. apply in_map_iff in Hin. destruct Hin as (xi & H1 & H2).
  destruct (prover_complete E (select x xs) (fun _ _ _ => True) s Hh) as (s' & [] & R1 & R2 & R3 & _).
  - intros w Hw. apply select_complete; auto. apply Exists_exists. exists xi. split; [exact H2|].
    rewrite Forall_forall in Hxs. rewrite (agrees_val w s xi Hw (Hxs _ H2)), (agrees_val w s x Hw Hx). exact H1.
  - exists s'. split; [exact R1|]. split; [exact R2|]. split; [apply honest_satisfies, R2|exact R3].
Qed.
(** With a non-member the prover's assignment satisfies nothing. *)
Theorem C29_select_rejects : forall (F : Field) (V : VSpace F) (E : TrEnv V) x xs (s s' : PState F) r,
  honest s -> lc_ok (issued s) x -> Forall (lc_ok (issued s)) xs -> prun E (select x xs) s = Some (s', r) ->
  ~ In (lc_val (p_asg s) x) (map (lc_val (p_asg s)) xs) -> ~ satisfies (p_asg s') (p_cs s').
Proof.
  intros F V E x xs s s' r Hh Hx Hxs Hp Hn Hs. apply Hn. destruct (prun_inv E _ _ _ _ (proj1 Hh) Hp) as [_ He]. pose proof (ext_keeps s s' He) as Hk.
  assert (HE : Exists (fun xi => lc_val (p_asg s') xi = lc_val (p_asg s') x) xs).
  { eapply (prover_sound E (select x xs) (select x xs) (fun _ => _)); [apply Hh|exact Hp|exact Hs|apply select_same|]. intros _. apply select_sound. }
  apply Exists_exists in HE. destruct HE as (xi & H1 & H2). apply in_map_iff. exists xi. split; [|exact H1].
  rewrite Forall_forall in Hxs. rewrite <- (keeps_val s s' xi Hk (Hxs _ H1)), <- (keeps_val s s' x Hk Hx). exact H2.
Qed.
Theorem C29_select_empty_panics : forall (F : Field) (V : VSpace F) (E : TrEnv V) x (s : PState F) (t : VState V),
  prun E (select x []) s = None /\ vrun E (select x []) t = None.
Proof. intros. split; reflexivity. Qed.
(** Every non-empty list gives a circuit. *)
Theorem C29_select_verifier_total : forall (F : Field) (V : VSpace F) (E : TrEnv V) x xs (t : VState V),
  xs <> [] -> exists t', vrun E (select x xs) t = Some (t', tt).
Proof.
  intros F V E x xs t Hx. destruct xs as [|x0 xs]; [contradiction|]. cbn [select]. generalize (lc_sub x0 x) as prod. clear Hx. revert t.
  induction xs as [|xi xs IH]; intros t prod; cbn [select_loop vrun]; [eauto|]. destruct (v_multiply t prod (lc_sub xi x)) as [t1 [[? ?] o]]. apply IH.
Qed.
Print Assumptions C29_select_sound.
Print Assumptions C29_select_complete.
Print Assumptions C29_select_rejects.
Print Assumptions C29_select_empty_panics.
Print Assumptions C29_select_verifier_total.

(* test data or vocabulary of statements, no code modelled *)
Definition ex_list : list (LC F101) := [lc_const (z101 3); lc_const (z101 9); lc_const (z101 5)].
Lemma ex_list_ok x : Forall (lc_ok (issued (ex_s x))) ex_list.
Proof. repeat (constructor; [apply ex_s_const|]). constructor. Qed.
Lemma ex_list_val x : map (lc_val (p_asg (ex_s x))) ex_list = [z101 3; z101 9; z101 5].
Proof. unfold ex_list. cbn [map]. rewrite !lc_val_const by reflexivity. reflexivity. Qed.
Example C29_demo : exists s', prun E101 (select (lc_var (Committed 0)) ex_list) (ex_s 9) = Some (s', tt) /\ honest s'.
Proof.
  destruct (C29_select_complete F101 (RegV F101) E101 (lc_var (Committed 0)) ex_list (ex_s 9) (ex_s_honest 9) (ex_s_ok 9) (ex_list_ok 9)) as (s' & H1 & H2 & _).
  - rewrite ex_s_val, ex_list_val. right. left. reflexivity.
  - eauto.
Qed.
Example C29_demo_sat : exists t' w, vrun E101 (select (lc_var (Committed 0)) ex_list) (ex_t 9) = Some (t', tt) /\ satisfies w (v_cs t').
Proof. destruct C29_demo as (s' & H1 & H2). eapply demo_sat; [|exact H1|exact H2]. apply simg_same, select_same. Qed.
Example C29_demo_wrong : exists s' r, prun E101 (select (lc_var (Committed 0)) ex_list) (ex_s 10) = Some (s', r) /\ ~ satisfies (p_asg s') (p_cs s').
Proof.
  destruct (is_some_ex (prun E101 (select (lc_var (Committed 0)) ex_list) (ex_s 10)) ltac:(vm_compute; reflexivity)) as [[s' r] H].
  exists s', r. split; [exact H|]. apply (C29_select_rejects _ _ E101 _ _ _ _ _ (ex_s_honest 10) (ex_s_ok 10) (ex_list_ok 10) H).
  rewrite ex_s_val, ex_list_val. intros [H1|[H1|[H1|[]]]]; apply (f_equal i101) in H1; vm_compute in H1; discriminate.
Qed.

(** ** C30: lookup proves table membership *)

Theorem C30_lookup_sound : forall (F : Field) (V : VSpace F) (E : TrEnv V) table index (t t' : VState V) r w cs,
  vrun E (lookup table index) t = Some (t', r) -> incl (v_cs t') cs -> satisfies w cs ->
  exists outs d, r = Ok outs /\ (d < 8)%nat /\ map (lc_val w) outs = map (fun row => nth d row 0) table.
Proof.
  intros F V E table index t t' r w cs H Hi Hs.
  apply (sound_run E (lookup table index) w (fun r => exists outs d, r = Ok outs /\ (d < 8)%nat /\ map (lc_val w) outs = map (fun row => nth d row 0) table) t t' r cs); auto.
  intros w1. apply lookup_sound. exact w1.
Qed.
Theorem C30_lookup_complete : forall (F : Field) (V : VSpace F) (E : TrEnv V) table d (s : PState F),
  honest s -> (d < 8)%nat ->
  exists s' outs, prun E (lookup table (Some d)) s = Some (s', Ok outs) /\ honest s' /\ satisfies (p_asg s') (p_cs s') /\ keeps s s' /\
    Forall (lc_ok (issued s')) outs /\ map (lc_val (p_asg s')) outs = map (fun row => nth d row 0) table.
Proof.
  intros F V E table d s Hh Hd.
  destruct (prover_complete E (lookup table (Some d)) (fun w ok r => exists outs, r = Ok outs /\ Forall (lc_ok ok) outs /\ map (lc_val w) outs = map (fun row => nth d row 0) table) s Hh)
    as (s' & r & R1 & R2 & R3 & ok & R4 & outs & -> & R5 & R6).
  - intros w Hw. apply lookup_complete; auto using issued_one. eapply agrees_one; eassumption. intros ok' rs Hs Hok Hv. exists rs. auto.
  - exists s', outs. split; [exact R1|]. split; [exact R2|]. split; [apply honest_satisfies, R2|]. split; [exact R3|]. split; [|exact R6].
    revert R5. apply Forall_impl. intros lc. apply lc_ok_sub. exact R4.
Qed.
Print Assumptions C30_lookup_sound.
Print Assumptions C30_lookup_complete.
(* test data or vocabulary of statements, no code modelled *)
Definition ex_table : list (list F101) := [map (fun k => z101 (Z.of_nat k * 7)) (seq 0 8); map (fun k => z101 (50 + Z.of_nat k)) (seq 0 8)].
Example C30_demo : exists s' outs, prun E101 (lookup ex_table (Some 6%nat)) (ex_s 1) = Some (s', Ok outs) /\ honest s' /\ map (lc_val (p_asg s')) outs = [z101 42; z101 56].
Proof.
  destruct (C30_lookup_complete F101 (RegV F101) E101 ex_table 6 (ex_s 1) (ex_s_honest 1)) as (s' & outs & H1 & H2 & _ & _ & _ & H3); [lia|].
  exists s', outs. split; [exact H1|]. split; [exact H2|]. etransitivity; [exact H3|]. reflexivity.
Qed.
Example C30_demo_sat : exists t' w outs, vrun E101 (lookup ex_table None) (ex_t 1) = Some (t', Ok outs) /\ satisfies w (v_cs t').
Proof.
  destruct C30_demo as (s' & outs & H1 & H2 & _). destruct (demo_sat _ (lookup ex_table None) 1 _ _ ltac:(apply simg_same, lookup_same) H1 H2) as (t' & w & H3 & H4). eauto 6.
Qed.
(** A column that is not in the table cannot be output: rows are looked up with one
    common index.  In the demo table, 42 (index 6) and 50 (index 0) never occur together. *)
Example C30_demo_mixed : forall t' outs w, vrun E101 (lookup ex_table None) (ex_t 1) = Some (t', Ok outs) -> satisfies w (v_cs t') ->
  map (lc_val w) outs <> [z101 42; z101 50].
Proof.
  intros t' outs w H Hs Hv. destruct (C30_lookup_sound F101 (RegV F101) E101 _ _ _ _ _ w _ H (incl_refl _) Hs) as (o & d & Ho & Hd & Hm).
  injection Ho as <-. pose proof (eq_trans (eq_sym Hv) Hm) as He. apply (f_equal (map i101)) in He. do 8 (destruct d as [|d]; [vm_compute in He; discriminate|]). lia.
Qed.

(** ** C31: curve_check *)

(** What the gadget enforces: the equation with [a*x^2] instead of [a*x]. *)
Theorem C31_curve_check_exact : forall (F : Field) (V : VSpace F) (E : TrEnv V) x y a b,
  (forall (t t' : VState V) r w cs, vrun E (curve_check x y a b) t = Some (t', r) -> incl (v_cs t') cs -> satisfies w cs ->
     lc_val w y * lc_val w y = lc_val w x * lc_val w x * lc_val w x + a * (lc_val w x * lc_val w x) + b) /\
  (forall s : PState F, honest s -> lc_ok (issued s) x -> lc_ok (issued s) y ->
     let X := lc_val (p_asg s) x in let Y := lc_val (p_asg s) y in
     Y * Y = X * X * X + a * (X * X) + b ->
     exists s', prun E (curve_check x y a b) s = Some (s', tt) /\ honest s' /\ satisfies (p_asg s') (p_cs s') /\ keeps s s').
Proof.
  intros F V E x y a b. split.
  - intros t t' r w cs H Hi Hs. eapply (sound_run E (curve_check x y a b) w (fun _ => _)); [|eassumption..]. intros w1. apply curve_check_sound. exact w1.
  - intros s Hh Hx Hy X Y Hv.
    destruct (prover_complete E (curve_check x y a b) (fun _ _ _ => True) s Hh) as (s' & [] & R1 & R2 & R3 & _).
    + intros w Hw. apply curve_check_complete; auto using issued_one. eapply agrees_one; eassumption.
      rewrite (agrees_val w s x Hw Hx), (agrees_val w s y Hw Hy). exact Hv.
    + exists s'. split; [exact R1|]. split; [exact R2|]. split; [apply honest_satisfies, R2|exact R3].
Qed.
(** The full claim (exactly the curve y^2 = x^3 + a*x + b) for all [a] is false, see
    [C31_curve_check_refuted]; it holds when a = 0, as for the curves in use. *)
Theorem C31_curve_check_partial : forall (F : Field) (V : VSpace F) (E : TrEnv V) x y b,
  (forall (t t' : VState V) r w cs, vrun E (curve_check x y 0 b) t = Some (t', r) -> incl (v_cs t') cs -> satisfies w cs ->
     lc_val w y * lc_val w y = lc_val w x * lc_val w x * lc_val w x + 0 * lc_val w x + b) /\
  (forall s : PState F, honest s -> lc_ok (issued s) x -> lc_ok (issued s) y ->
     let X := lc_val (p_asg s) x in let Y := lc_val (p_asg s) y in
     Y * Y = X * X * X + 0 * X + b ->
     exists s', prun E (curve_check x y 0 b) s = Some (s', tt) /\ honest s' /\ satisfies (p_asg s') (p_cs s') /\ keeps s s').
Proof.
  intros F V E x y b. assert (Z0 : forall X c : F, c + 0 * X + b = c + 0 * (X * X) + b) by (intros; apply f_equal2; [|reflexivity]; rewrite !fmul_0_l; reflexivity).
  destruct (C31_curve_check_exact F V E x y 0 b) as [H1 H2]. split.
  - intros t t' r w cs H Hi Hs. rewrite Z0. eapply H1; eassumption.
  - intros s Hh Hx Hy X Y Hv. apply H2; auto. fold X Y. rewrite <- Z0. exact Hv.
Qed.
(** A point on y^2 = x^3 + x + 3 that the circuit for these parameters rejects under
    every assignment, and a non-point it accepts. *)
Definition no_point (cs : list (LC F101)) : Prop := forall w, ~ satisfies w cs.
Theorem C31_curve_check_refuted : exists (a b x y x' y' : F101) (t t' : VState (RegV F101)),
  y * y = x * x * x + a * x + b /\ vrun E101 (curve_check (lc_const x) (lc_const y) a b) (v_new []) = Some (t, tt) /\ no_point (v_cs t) /\
  y' * y' <> x' * x' * x' + a * x' + b /\ vrun E101 (curve_check (lc_const x') (lc_const y') a b) (v_new []) = Some (t', tt) /\ exists w, satisfies w (v_cs t').
Proof.
  set (a := z101 1). set (b := z101 3).
  (* (2, y) : 8+2+3 = 13 = 35^2 mod 101 *)
  exists a, b, (z101 2), (z101 35), (z101 5), (z101 31).
  destruct (is_some_ex (vrun E101 (curve_check (lc_const (z101 2)) (lc_const (z101 35)) a b) (v_new [])) ltac:(vm_compute; reflexivity)) as [[t []] Ht].
  destruct (C31_curve_check_exact F101 (RegV F101) E101 (lc_const (z101 5)) (lc_const (z101 31)) a b) as [_ Hc].
  destruct (Hc (ex_s 0) (ex_s_honest 0) (ex_s_const 0 _) (ex_s_const 0 _)) as (s' & H1 & H2 & _).
  { cbv zeta. rewrite !lc_val_const by reflexivity. apply feqb_true. vm_compute. reflexivity. }
  exists t.
  assert (Hsg : same_gadget (curve_check (lc_const (z101 5)) (lc_const (z101 31)) a b) (curve_check (lc_const (z101 5)) (lc_const (z101 31)) a b)) by apply simg_same, curve_check_same.
  destruct (honest_new (F := F101) [] : honest (p_new [])) as [Hg Hf].
  destruct (Hc (p_new []) (honest_new []) (lc_ok_const _ _ (issued_one _)) (lc_ok_const _ _ (issued_one _))) as (s2 & P1 & P2 & _).
  { cbv zeta. rewrite !lc_val_const by reflexivity. apply feqb_true. vm_compute. reflexivity. }
  destruct (session_agree E101 pc101 g101 [] _ _ (ses_new E101 pc101 g101 [])) as [_ Ha].
  destruct (lockstep_prun E101 pc101 g101 _ _ _ _ s2 tt Hsg Hg Ha P1) as (t2 & T2 & Hag).
  exists t2. split; [apply feqb_true; vm_compute; reflexivity|]. split; [exact Ht|]. split.
  - intros w Hs. destruct (C31_curve_check_exact F101 (RegV F101) E101 (lc_const (z101 2)) (lc_const (z101 35)) a b) as [Hsd _].
    specialize (Hsd _ _ _ w _ Ht (incl_refl _) Hs). rewrite !(lc_val_const w _ (proj1 Hs)) in Hsd. apply feqb_true in Hsd. vm_compute in Hsd. discriminate.
  - split; [apply feqb_false; vm_compute; reflexivity|]. split; [exact T2|]. eapply sat_of_honest; [exact P2|exact (ag_cs _ _ _ _ Hag)].
Qed.
Print Assumptions C31_curve_check_exact.
Print Assumptions C31_curve_check_partial.
Print Assumptions C31_curve_check_refuted.

(** ** C32: checked_curve_addition *)

Section RingAux.
  Context {F : Field}.
  Add Field FFra : (f_th F).
  Lemma ring_aux1 (z yl : F) : z - (- (- yl - z) - yl) = 0. Proof. ring. Qed.
  Lemma ring_aux2 (dd xl : F) : dd = dd - xl - xl + xl + xl. Proof. ring. Qed.
End RingAux.
Section Addition.
  Context {Fb Fs : Field} (C : SWCurve Fb Fs).

  Theorem C32_checked_add_sound : forall (V : VSpace Fb) (E : TrEnv V) (p : CurveAddition Fb) inv (t t' : VState V) r w cs (P Q : C),
    vrun E (checked_curve_addition p inv) t = Some (t', r) -> incl (v_cs t') cs -> satisfies w cs ->
    coords P = Some (lc_val w (ca_xl p), lc_val w (ca_yl p)) -> coords Q = Some (lc_val w (ca_xr p), lc_val w (ca_yr p)) ->
    lc_val w (ca_xl p) <> lc_val w (ca_xr p) /\ coords (vadd P Q) = Some (lc_val w (ca_xo p), lc_val w (ca_yo p)).
  Proof.
    intros V E p inv t t' r w cs P Q H Hi Hs HP HQ.
    destruct (sound_run E (checked_curve_addition p inv) w (fun _ => lc_val w (ca_xl p) <> lc_val w (ca_xr p) /\ exists d,
      add_eqs (lc_val w (ca_xl p)) (lc_val w (ca_yl p)) (lc_val w (ca_xr p)) (lc_val w (ca_yr p)) (lc_val w (ca_xo p)) (lc_val w (ca_yo p)) d) t t' r cs) as [Hx (d & E1 & E2 & E3)]; auto.
    - intros w1. apply checked_sound. exact w1.
    - split; [exact Hx|]. eapply chord_sum; eassumption.
  Qed.
  (** Two points with different x: the slope and inverse the callers compute
      satisfy the constraints. *)
  Theorem C32_checked_add_complete : forall (V : VSpace Fb) (E : TrEnv V) (p : CurveAddition Fb) (s : PState Fb) (P Q : C),
    let X := lc_val (p_asg s) in
    honest s -> Forall (lc_ok (issued s)) [ca_xl p; ca_yl p; ca_xr p; ca_yr p; ca_xo p; ca_yo p] ->
    coords P = Some (X (ca_xl p), X (ca_yl p)) -> coords Q = Some (X (ca_xr p), X (ca_yr p)) -> X (ca_xl p) <> X (ca_xr p) ->
    coords (vadd P Q) = Some (X (ca_xo p), X (ca_yo p)) ->
    ca_delta p = Some ((X (ca_yr p) - X (ca_yl p)) * finv (X (ca_xr p) - X (ca_xl p))) ->
    exists s', prun E (checked_curve_addition p (Some (finv (X (ca_xl p) - X (ca_xr p))))) s = Some (s', tt) /\ honest s' /\ satisfies (p_asg s') (p_cs s') /\ keeps s s'.
  Proof.
    intros V E p s P Q X Hh Hok HP HQ Hx Ho Hd. rewrite !Forall_cons_iff in Hok. destruct Hok as (O1 & O2 & O3 & O4 & O5 & O6 & _).
    pose proof (chord_eqs P Q _ _ _ _ _ _ HP HQ Hx Ho) as He. cbv zeta in He.
    destruct (prover_complete E (checked_curve_addition p (Some (finv (X (ca_xl p) - X (ca_xr p))))) (fun _ _ _ => True) s Hh) as (s' & [] & R1 & R2 & R3 & _).
    - intros w Hw. eapply checked_complete; eauto using issued_one; try (eapply agrees_one; eassumption).
      + rewrite (agrees_val w s (ca_xl p) Hw O1), (agrees_val w s (ca_xr p) Hw O3). apply finv_r. apply fsub_neq_0. exact Hx.
      + rewrite (agrees_val w s (ca_xl p) Hw O1), (agrees_val w s (ca_yl p) Hw O2), (agrees_val w s (ca_xr p) Hw O3), (agrees_val w s (ca_yr p) Hw O4), (agrees_val w s (ca_xo p) Hw O5), (agrees_val w s (ca_yo p) Hw O6). exact He.
    - exists s'. split; [exact R1|]. split; [exact R2|]. split; [apply honest_satisfies, R2|exact R3].
  Qed.

  (** ** C33: the incomplete variant

      Full claim: as C32.  Missing: when both points are equal, nothing is enforced
      ([C33_incomplete_refuted]). *)
  Theorem C33_incomplete_add_partial : forall (V : VSpace Fb) (E : TrEnv V) (p : CurveAddition Fb) (t t' : VState V) r w cs (P Q : C),
    vrun E (incomplete_curve_addition p) t = Some (t', r) -> incl (v_cs t') cs -> satisfies w cs ->
    coords P = Some (lc_val w (ca_xl p), lc_val w (ca_yl p)) -> coords Q = Some (lc_val w (ca_xr p), lc_val w (ca_yr p)) ->
    (P = Q \/ (lc_val w (ca_xl p) <> lc_val w (ca_xr p) /\ coords (vadd P Q) = Some (lc_val w (ca_xo p), lc_val w (ca_yo p)))).
  Proof.
    intros V E p t t' r w cs P Q H Hi Hs HP HQ.
    destruct (sound_run E (incomplete_curve_addition p) w (fun _ => exists d,
      add_eqs (lc_val w (ca_xl p)) (lc_val w (ca_yl p)) (lc_val w (ca_xr p)) (lc_val w (ca_yr p)) (lc_val w (ca_xo p)) (lc_val w (ca_yo p)) d) t t' r cs) as (d & E1 & E2 & E3); auto.
    - intros w1. apply incomplete_sound.
    - destruct (f_eq_dec (lc_val w (ca_xl p)) (lc_val w (ca_xr p))) as [Heq|Hne]; [|right; split; [exact Hne|eapply chord_sum; eassumption]].
      left. rewrite Heq in E1, HP. assert (Hy : lc_val w (ca_yr p) = lc_val w (ca_yl p)).
      { apply fsub_0_iff. rewrite <- E1. replace (lc_val w (ca_xr p) - lc_val w (ca_xr p)) with (0 : Fb) by (symmetry; apply fsub_0_iff; reflexivity). apply fmul_0_r. }
      rewrite Hy in HQ. eapply coords_inj; eassumption.
  Qed.
  (** Adding a point to itself: every slope gives a satisfying assignment. *)
  Theorem C33_incomplete_add_free_slope : forall (V : VSpace Fb) (E : TrEnv V) (p : CurveAddition Fb) (s : PState Fb) d,
    let X := lc_val (p_asg s) in
    honest s -> Forall (lc_ok (issued s)) [ca_xl p; ca_yl p; ca_xr p; ca_yr p; ca_xo p; ca_yo p] ->
    X (ca_xr p) = X (ca_xl p) -> X (ca_yr p) = X (ca_yl p) ->
    X (ca_xo p) = d * d - X (ca_xl p) - X (ca_xl p) -> X (ca_yo p) = - X (ca_yl p) - d * (X (ca_xo p) - X (ca_xl p)) ->
    ca_delta p = Some d ->
    exists s', prun E (incomplete_curve_addition p) s = Some (s', tt) /\ honest s' /\ satisfies (p_asg s') (p_cs s') /\ keeps s s'.
  Proof.
    intros V E p s d X Hh Hok Ex Ey Exo Eyo Hd. rewrite !Forall_cons_iff in Hok. destruct Hok as (O1 & O2 & O3 & O4 & O5 & O6 & _).
    destruct (prover_complete E (incomplete_curve_addition p) (fun _ _ _ => True) s Hh) as (s' & [] & R1 & R2 & R3 & _).
    - intros w Hw. eapply incomplete_complete; eauto.
      rewrite (agrees_val w s (ca_xl p) Hw O1), (agrees_val w s (ca_yl p) Hw O2), (agrees_val w s (ca_xr p) Hw O3), (agrees_val w s (ca_yr p) Hw O4), (agrees_val w s (ca_xo p) Hw O5), (agrees_val w s (ca_yo p) Hw O6).
      fold X. pose proof (f_th Fb) as Th. repeat split.
      + rewrite Ex, Ey. transitivity (0 : Fb); [|symmetry; apply fsub_0_iff; reflexivity]. replace (X (ca_xl p) - X (ca_xl p)) with (0 : Fb) by (symmetry; apply fsub_0_iff; reflexivity). apply fmul_0_r.
      + rewrite Eyo. set (z := d * _). set (yl := X (ca_yl p)). clearbody z yl. apply fsub_0_iff. apply (ring_aux1 z yl).
      + rewrite Exo, Ex. set (xl := X (ca_xl p)). set (dd := d * d). clearbody dd xl. apply ring_aux2.
    - exists s'. split; [exact R1|]. split; [exact R2|]. split; [apply honest_satisfies, R2|exact R3].
  Qed.
End Addition.
Print Assumptions C32_checked_add_sound.
Print Assumptions C32_checked_add_complete.
Print Assumptions C33_incomplete_add_partial.
Print Assumptions C33_incomplete_add_free_slope.

(** Examples on the curve y^2 = x^3 + 2 over F_139: G and 2G. *)
Definition E139 : TrEnv (RegV PF139) := toy_env PM139.
(* test data or vocabulary of statements, no code modelled *)
Definition k163 (z : Z) : TC0 := fp_mk (p:=PM163) z.
Lemma toy_gadget {A} (p p' : Prog PF139 A) s' a : same_gadget p p' -> prun E139 p (p_new []) = Some (s', a) -> honest s' ->
  exists t' w, vrun E139 p' (v_new []) = Some (t', a) /\ satisfies w (v_cs t') /\ w = p_asg s'.
Proof.
  intros Hsg Hp Hh. set (pc := toy_pc PM139 : PedersenGens (RegV PF139)). set (g := toy_gens PM139 1 1 : BPGens (RegV PF139)).
  destruct (session_agree E139 pc g [] _ _ (ses_new E139 pc g [])) as [Hg Ha].
  destruct (lockstep_prun E139 pc g p p' _ _ s' a Hsg Hg Ha Hp) as (t' & Ht & Hag). exists t', (p_asg s'). split; [exact Ht|]. split; [|reflexivity].
  rewrite <- (ag_cs _ _ _ _ Hag). apply honest_satisfies, Hh.
Qed.
Lemma new_const (c : PF139) : lc_ok (issued (p_new (F:=PF139) [])) (lc_const c).
Proof. apply lc_ok_const, issued_one. Qed.
Lemma new_val (c : PF139) : lc_val (p_asg (p_new [])) (lc_const c) = c.
Proof. apply lc_val_const. reflexivity. Qed.
(* test data or vocabulary of statements, no code modelled *)
Definition cst_add (xl yl xr yr xo yo d : PF139) : CurveAddition PF139 :=
  mkCA (lc_const xl) (lc_const yl) (lc_const xr) (lc_const yr) (lc_const xo) (lc_const yo) (Some d).
Example C32_demo : exists xl yl xr yr xo yo d i s', 
  coords (k163 1) = Some (xl, yl) /\ coords (k163 2) = Some (xr, yr) /\ coords (vadd (k163 1) (k163 2)) = Some (xo, yo) /\
  prun E139 (checked_curve_addition (cst_add xl yl xr yr xo yo d) (Some i)) (p_new []) = Some (s', tt) /\ honest s'.
Proof.
  assert (H1 : k163 1 <> v0) by (intros H; apply (f_equal (zv (p:=PM163))) in H; vm_compute in H; discriminate).
  assert (H2 : k163 2 <> v0) by (intros H; apply (f_equal (zv (p:=PM163))) in H; vm_compute in H; discriminate).
  assert (H3 : vadd (k163 1) (k163 2) <> v0) by (intros H; apply (f_equal (zv (p:=PM163))) in H; vm_compute in H; discriminate).
  destruct (coords_some _ H1) as (xl & yl & HP). destruct (coords_some _ H2) as (xr & yr & HQ). destruct (coords_some _ H3) as (xo & yo & HO).
  assert (Hx : xl <> xr).
  { eapply diff_x; [exact HP|exact HQ|..]; intros H; apply (f_equal (zv (p:=PM163))) in H; vm_compute in H; discriminate. }
  destruct (C32_checked_add_complete TC0 (RegV PF139) E139 (cst_add xl yl xr yr xo yo ((yr - yl) * finv (xr - xl))) (p_new []) (k163 1) (k163 2)) as (s' & R1 & R2 & _);
    cbn [ca_xl ca_yl ca_xr ca_yr ca_xo ca_yo ca_delta cst_add]; rewrite ?new_val; auto using honest_new.
  - repeat (constructor; [apply new_const|]). constructor.
  - exists xl, yl, xr, yr, xo, yo, ((yr - yl) * finv (xr - xl)), (finv (xl - xr)), s'. cbn [ca_xl ca_xr cst_add] in R1. rewrite !new_val in R1. auto 6.
Qed.
Example C32_demo_sat : exists xl yl xr yr xo yo d t' w,
  coords (k163 1) = Some (xl, yl) /\ coords (k163 2) = Some (xr, yr) /\
  vrun E139 (checked_curve_addition (cst_add xl yl xr yr xo yo d) None) (v_new []) = Some (t', tt) /\ satisfies w (v_cs t').
Proof.
  destruct C32_demo as (xl & yl & xr & yr & xo & yo & d & i & s' & H1 & H2 & H3 & H4 & H5).
  destruct (toy_gadget (checked_curve_addition (cst_add xl yl xr yr xo yo d) (Some i)) (checked_curve_addition (cst_add xl yl xr yr xo yo d) None) s' tt) with (2 := H4) as (t' & w & T1 & T2 & _); [|exact H5|].
  - apply simg_same, checked_same; [repeat split|discriminate|discriminate].
  - exists xl, yl, xr, yr, xo, yo, d, t', w. auto.
Qed.
(** Doubling through the incomplete gadget: an output that is not even on the curve
    satisfies the constraints. *)
Theorem C33_incomplete_refuted : exists (P : TC0) x y xo yo (t' : VState (RegV PF139)) w,
  coords P = Some (x, y) /\
  vrun E139 (incomplete_curve_addition (mkCA (lc_const x) (lc_const y) (lc_const x) (lc_const y) (lc_const xo) (lc_const yo) None)) (v_new []) = Some (t', tt) /\
  satisfies w (v_cs t') /\ (forall R : TC0, coords R <> Some (xo, yo)).
Proof.
  assert (H1 : k163 1 <> v0) by (intros H; apply (f_equal (zv (p:=PM163))) in H; vm_compute in H; discriminate).
  set (x := fp_mk (p:=PM139) (fst (nth 0 tbl0 (0, 0)%Z)) : PF139). set (y := fp_mk (p:=PM139) (snd (nth 0 tbl0 (0, 0)%Z)) : PF139). set (d := 0 : PF139).
  assert (HP : coords (k163 1) = Some (x, y)) by (apply xy_eqb_true; vm_compute; reflexivity).
  set (xo := d * d - x - x). set (yo := - y - d * (xo - x)).
  destruct (C33_incomplete_add_free_slope (RegV PF139) E139 (cst_add x y x y xo yo d) (p_new []) d) as (s' & R1 & R2 & _);
    cbn [ca_xl ca_yl ca_xr ca_yr ca_xo ca_yo ca_delta cst_add]; rewrite ?new_val; auto using honest_new.
  { repeat (constructor; [apply new_const|]). constructor. }
  destruct (toy_gadget (incomplete_curve_addition (cst_add x y x y xo yo d)) (incomplete_curve_addition (mkCA (lc_const x) (lc_const y) (lc_const x) (lc_const y) (lc_const xo) (lc_const yo) None)) s' tt) with (2 := R1) as (t' & w & T1 & T2 & _); [|exact R2|].
  - apply simg_same, incomplete_same; [repeat split|discriminate].
  - exists (k163 1), x, y, xo, yo, t', w. split; [exact HP|]. split; [exact T1|]. split; [exact T2|].
    intros R HR. apply (coords_on _ _ TC0) in HR. apply feqb_true in HR. vm_compute in HR. discriminate.
Qed.
Print Assumptions C33_incomplete_refuted.
(** [C33_incomplete_add_partial]'s hypotheses are met by the run of C32's points. *)
Example C33_demo : exists xl yl xr yr xo yo d s',
  coords (k163 1) = Some (xl, yl) /\ coords (k163 2) = Some (xr, yr) /\
  prun E139 (incomplete_curve_addition (cst_add xl yl xr yr xo yo d)) (p_new []) = Some (s', tt) /\ honest s'.
Proof.
  assert (H1 : k163 1 <> v0) by (intros H; apply (f_equal (zv (p:=PM163))) in H; vm_compute in H; discriminate).
  assert (H2 : k163 2 <> v0) by (intros H; apply (f_equal (zv (p:=PM163))) in H; vm_compute in H; discriminate).
  assert (H3 : vadd (k163 1) (k163 2) <> v0) by (intros H; apply (f_equal (zv (p:=PM163))) in H; vm_compute in H; discriminate).
  destruct (coords_some _ H1) as (xl & yl & HP). destruct (coords_some _ H2) as (xr & yr & HQ). destruct (coords_some _ H3) as (xo & yo & HO).
  assert (Hx : xl <> xr).
  { eapply diff_x; [exact HP|exact HQ|..]; intros H; apply (f_equal (zv (p:=PM163))) in H; vm_compute in H; discriminate. }
  pose proof (chord_eqs _ _ _ _ _ _ _ _ HP HQ Hx HO) as He. cbv zeta in He. set (d := (yr - yl) * finv (xr - xl)) in *.
  destruct (prover_complete E139 (incomplete_curve_addition (cst_add xl yl xr yr xo yo d)) (fun _ _ _ => True) (p_new []) (honest_new [])) as (s' & [] & R1 & R2 & _).
  - intros w Hw. eapply incomplete_complete; cbn [ca_xl ca_yl ca_xr ca_yr ca_xo ca_yo ca_delta cst_add]; try reflexivity; try apply new_const; auto.
    rewrite !(agrees_val w (p_new []) _ Hw (new_const _)), !new_val. exact He.
  - exists xl, yl, xr, yr, xo, yo, d, s'. auto.
Qed.
