(** * Properties of the R1CS prover and verifier (C06-C10, C14-C21) *)
From Verif Require Import R1CSSpec IPPProofs UtilProofs CSLogic CSProofs Lockstep FlatProofs CSMore R1CSPoly R1CSProofs R1CSMain R1CSVerif R1CSMore R1CSTotal R1CSMisc R1CSBatch GenProofs Toy.
From Coq Require Import Lia.
Local Open Scope F_scope.

(** ** C06: degree slots *)

Theorem C06_slots : forall ncomm : nat,
  let op := op_degree_of ncomm in
  let slots := op_splits op in
  NoDup (map fst slots) /\ NoDup (map snd slots) /\
  (forall l r, In (l, r) slots -> (l + r = op)%nat /\ (l < op + 1)%nat /\ (r < op + 1)%nat) /\
  (2 + ncomm <= length slots)%nat /\
  nth_error slots 0 = Some (op / 2, op / 2)%nat /\ nth_error slots 1 = Some (op, 0%nat).
Proof.
  intros ncomm op slots.
  assert (Hop2 : (2 <= op)%nat) by (unfold op; rewrite op_degree_even; lia).
  assert (Hope : (op mod 2 = 0)%nat) by (unfold op; rewrite op_degree_even, Nat.mul_comm; apply Nat.mod_mul; lia).
  split; [apply op_splits_fst; assumption|]. split; [apply op_splits_snd; assumption|]. split.
  - intros l r H. pose proof (op_splits_sum op l r Hope H). lia.
  - split; [|split; reflexivity]. unfold slots. rewrite op_splits_length by exact Hop2. pose proof (op_degree_ge ncomm). fold op in H. lia.
Qed.
Print Assumptions C06_slots.
Example C06_demo : op_degree_of 3 = 4%nat /\ op_splits 4 = [(2, 2); (4, 0); (3, 1); (1, 3); (0, 4)]%nat.
Proof. vm_compute. split; reflexivity. Qed.

(** ** C07: the proven coefficient *)

Theorem C07_coefficient : forall (F : Field) ncomm n (y : F) (aL aR aO sL sR : list F) (fl : Flat F) (vecs : list (list F)),
  y <> 0 -> length vecs = ncomm ->
  length aL = n -> length aR = n -> length aO = n -> length (wL fl) = n -> length (wR fl) = n -> length (wO fl) = n ->
  map (@length F) (wVC fl) = map (@length F) vecs -> Forall (fun v => (length v <= n)%nat) vecs ->
  exists l r t, build_polys (op_degree_of ncomm) (op_splits (op_degree_of ncomm)) n y (finv y) aL aR aO sL sR fl vecs = Some (l, r, t) /\
    (forall x, exists lx rx, vp_eval l x = Some lx /\ vp_eval r x = Some rx /\ poly_eval t x = ip lx rx) /\
    nth (op_degree_of ncomm) t 0 =
      ip (wL fl) aL + ip (wR fl) aR + ip (wO fl) aO + vsum (zipw ip (wVC fl) vecs)
      + ip aL (zipw fmul aR (exp_iter y n)) - ip aO (exp_iter y n)
      + ip (zipw fmul (wR fl) (exp_iter (finv y) n)) (wL fl).
Proof.
  intros F ncomm n y aL aR aO sL sR fl vecs Hy Hl HL HR HO WL WR WO WVC Hv.
  destruct (build_polys_spec ncomm n y (finv y) aL aR aO sL sR fl vecs Hl WVC Hv) as (l & r & t & Hb & Lt & Hev & Hc).
  exists l, r, t. split; [exact Hb|]. split.
  - intros x. destruct (Hev x) as (lx & rx & H1 & H2 & _ & _ & H3 & _). exists lx, rx. auto.
  - rewrite Hc. rewrite (t2_value_spec n y aL aR aO fl vecs) by assumption. reflexivity.
Qed.
Print Assumptions C07_coefficient.

(** ** a concrete circuit

    Vector commitment (7, 8), commitment 5; the gadget multiplies the first entry
    by the committed value and constrains the product to be [k]. *)
Definition prod_gadget (k : Z) : Prog F101 unit :=
  PMul (lc_var (VectorCommit 0 0)) (lc_var (Committed 0)) (fun '(l, r, o) => PConstrain (lc_sub (lc_var o) (lc_const (z101 k))) (PRet tt)).
(* test data or vocabulary of statements, no code modelled *)
Definition rnd101 : PRand F101 :=
  mkRand (z101 11) (z101 12) (z101 13) (fun i => z101 (17 + Z.of_nat i)) (fun i => z101 (23 + Z.of_nat i))
         (z101 31) (z101 32) (z101 33) (fun i => z101 (37 + Z.of_nat i)) (fun i => z101 (43 + Z.of_nat i)) (fun i => z101 (51 + 3 * Z.of_nat i)).
(* test data or vocabulary of statements, no code modelled *)
Definition ex_p0 := the (p_new [], (v0, [])) (p_commit_vec E101 pc101 g101 (p_new []) [z101 7; z101 8] (z101 9)).
(* test data or vocabulary of statements, no code modelled *)
Definition ex_p1 := p_commit E101 pc101 (fst ex_p0) (z101 5) (z101 6).
(* test data or vocabulary of statements, no code modelled *)
Definition ex_p (k : Z) := fst (the (p_new [], tt) (prun E101 (prod_gadget k) (fst ex_p1))).
(* test data or vocabulary of statements, no code modelled *)
Definition ex_t (k : Z) := fst (the (v_new [], tt) (vrun E101 (prod_gadget k) (fst (v_commit E101 (fst (v_commit_vec E101 (v_new []) 2 (fst (snd ex_p0)))) (fst (snd ex_p1)))))).

Lemma ex_session_gen (F : Field) (V : VSpace F) (E : TrEnv V) pc g (vs : list F) vb (v vb' : F) (p : Prog F unit) r0 r1 r2 r3 :
  p_commit_vec E pc g (p_new []) vs vb = Some r0 -> r1 = p_commit E pc (fst r0) v vb' ->
  same_gadget p p -> prun E p (fst r1) = Some r2 ->
  vrun E p (fst (v_commit E (fst (v_commit_vec E (v_new []) (length vs) (fst (snd r0)))) (fst (snd r1)))) = Some r3 -> session E pc g [] (fst r2) (fst r3).
Proof.
  destruct r0 as [s0 [c0 us]], r1 as [s1 [c1 u1]], r2 as [s2 []], r3 as [t2 []]. cbn [fst snd].
  intros H0 H1 Hsg Hp Hv. eapply ses_gadget; [|exact Hsg|exact Hp|exact Hv].
  eapply ses_commit; [|symmetry; exact H1]. eapply ses_commit_vec; [apply ses_new|exact H0].
Qed.
Lemma prod_same k : same_gadget (prod_gadget k) (prod_gadget k).
Proof. constructor. intros [[l r] o]. repeat constructor. Qed.
Lemma ex_session_35 : session E101 pc101 g101 [] (ex_p 35) (ex_t 35).
Proof.
  apply (ex_session_gen _ _ E101 pc101 g101 [z101 7; z101 8] (z101 9) (z101 5) (z101 6) (prod_gadget 35) ex_p0 ex_p1).
  - apply the_some. vm_compute. reflexivity.
  - reflexivity.
  - apply prod_same.
  - apply the_some. vm_compute. reflexivity.
  - apply the_some. vm_compute. reflexivity.
Qed.
Lemma ex_session_36 : session E101 pc101 g101 [] (ex_p 36) (ex_t 36).
Proof.
  apply (ex_session_gen _ _ E101 pc101 g101 [z101 7; z101 8] (z101 9) (z101 5) (z101 6) (prod_gadget 36) ex_p0 ex_p1).
  - apply the_some. vm_compute. reflexivity.
  - reflexivity.
  - apply prod_same.
  - apply the_some. vm_compute. reflexivity.
  - apply the_some. vm_compute. reflexivity.
Qed.
Lemma gens_wf_new : forall (F : Field) (V : VSpace F) (chain : bytes -> nat -> V) cap k, gens_wf (bp_new chain cap (S k)).
Proof.
  intros. rewrite bp_new_table. unfold gens_wf. cbn [G_vec H_vec gens_capacity]. do 2 eexists.
  split; [apply nth_table; lia|]. split; [apply nth_table; lia|]. rewrite !map_length, !seq_length. split; reflexivity.
Qed.


(** ** C08: completeness, one phase *)

Theorem C08_complete : forall (F : Field) (V : VSpace F) (E : TrEnv V) pc g tr s t dbg rnd pf trf,
  session E pc g tr s t -> p_def s = [] -> gens_wf g -> (gens_capacity g < 2 ^ 32)%nat ->
  satisfies (p_asg s) (p_cs s) ->
  r1cs_prove E dbg rnd pc g s = Some (Ok (pf, trf)) ->
  Forall (fun P => P <> v0) (validated_points (op_degree_of (length (p_vec s))) pf) ->
  forall dbg' rr, r1cs_verify E dbg' rr pf pc g t = Some (Ok tt).
Proof.
  intros F V E pc g tr s t dbg rnd pf trf Hs Hd Hw Hc Hsat Hp Hnz. destruct (session_agree E pc g tr s t Hs) as [Hi Ha].
  eapply verify_complete; try eassumption. apply one_phase_satisfied; assumption.
Qed.

(** The prover does return a proof, when challenges can be drawn and are not zero. *)
Theorem C08_prove_total : forall (F : Field) (V : VSpace F) (E : TrEnv V) pc g tr s t dbg rnd,
  session E pc g tr s t -> p_def s = [] -> gens_wf g ->
  (forall tr lb, exists c tr', challenge_scalar E tr lb = Some (c, tr') /\ c <> 0) ->
  (length (p_vec s) <= 17)%nat -> (next_power_of_two (p_size s) <= gens_capacity g)%nat ->
  Forall (Forall (fun x => p_var s (fst x) <> None)) (p_cs s) ->
  exists pf trf, r1cs_prove E dbg rnd pc g s = Some (Ok (pf, trf)).
Proof.
  intros F V E pc g tr s t dbg rnd Hs Hd Hw Hch H17 Hc Hv. destruct (session_agree E pc g tr s t Hs) as [Hi Ha].
  apply prove_total_1; assumption.
Qed.
Print Assumptions C08_complete.
Print Assumptions C08_prove_total.

(** The hypotheses hold for the product circuit: session, satisfied constraint,
    proof returned, all validated points different from the identity. *)
Example C08_demo_session : session E101 pc101 g101 [] (ex_p 35) (ex_t 35) /\ p_def (ex_p 35) = [] /\ gens_wf g101.
Proof.
  split; [exact ex_session_35|]. split; [apply nil_of; vm_compute; reflexivity|apply gens_wf_new].
Qed.
(* test data or vocabulary of statements, no code modelled *)
Definition is_zero101 (x : F101) : bool := feqb x 0.
Example C08_demo_run :
  match r1cs_prove E101 true rnd101 pc101 g101 (ex_p 35) with
  | Some (Ok (pf, _)) => forallb (fun P => negb (veqb P v0)) (validated_points (op_degree_of (length (p_vec (ex_p 35)))) pf) &&
      Nat.eqb (length (ipp_L (pipp pf))) 1 && Nat.eqb (length (p_cs (ex_p 35))) 3 &&
      forallb (fun lc => match p_eval (ex_p 35) lc with Some v => is_zero101 v | None => false end) (p_cs (ex_p 35))
  | _ => false
  end = true.
Proof. vm_compute. reflexivity. Qed.

(** ** C09: completeness with a second phase *)

(** The hypothesis says that whatever the callbacks draw, the assignment they
    leave behind satisfies all constraints. *)
Theorem C09_complete_phase2 : forall (F : Field) (V : VSpace F) (E : TrEnv V) pc g tr s t dbg rnd pf trf,
  session E pc g tr s t -> gens_wf g -> (gens_capacity g < 2 ^ 32)%nat ->
  (forall tr s2, p_create_randomized E (p_set_tr (p_pad (p_size s) s) tr) = Some (Ok s2) -> satisfies (p_asg s2) (p_cs s2)) ->
  r1cs_prove E dbg rnd pc g s = Some (Ok (pf, trf)) ->
  Forall (fun P => P <> v0) (validated_points (op_degree_of (length (p_vec s))) pf) ->
  forall dbg' rr, r1cs_verify E dbg' rr pf pc g t = Some (Ok tt).
Proof.
  intros F V E pc g tr s t dbg rnd pf trf Hs Hw Hc Hsat Hp Hnz. destruct (session_agree E pc g tr s t Hs) as [Hi Ha].
  rewrite p_pad_eq in Hsat. eapply verify_complete; eassumption.
Qed.

(** Second-phase multipliers and vector commitments: the prover panics. *)
Theorem C09_phase2_vector_panics : forall (F : Field) (V : VSpace F) (E : TrEnv V) pc g s dbg rnd,
  gens_wf g -> p_vec s <> [] ->
  (forall tr, exists s2, p_create_randomized E (p_set_tr (p_pad (p_size s) s) tr) = Some (Ok s2) /\
     (p_size s < p_size s2)%nat /\ (next_power_of_two (p_size s2) <= gens_capacity g)%nat) ->
  r1cs_prove E dbg rnd pc g s = None.
Proof. intros F V E pc g s dbg rnd Hw Hv H. rewrite p_pad_eq in H. apply prove_phase2_vec; assumption. Qed.
Print Assumptions C09_complete_phase2.
Print Assumptions C09_phase2_vector_panics.

(** A circuit whose callback multiplies a committed value by a challenge. *)
Section TwoPhase.
  Context {F : Field} {V : VSpace F} (E : TrEnv V) (pc : PedersenGens V) (g : BPGens V) (v vb : F).
  Add Field FFtwo : (f_th F).
  (* test data or vocabulary of statements, no code modelled *)
  Definition two_cb : Prog F (Res unit) :=
    PChallenge "c" (fun c => PMul (lc_var (Committed 0)) (lc_const c) (fun '(l, r, o) =>
      PConstrain (lc_sub (lc_var o) (lc_mul (lc_var (Committed 0)) c)) (PRet (Ok tt)))).
  (* test data or vocabulary of statements, no code modelled *)
  Definition two_g : Prog F unit := PSpecify two_cb (PRet tt).
  (* test data or vocabulary of statements, no code modelled *)
  Definition two_p := p_set_def (fst (p_commit E pc (p_new []) v vb)) [two_cb].
  (* test data or vocabulary of statements, no code modelled *)
  Definition two_t := v_set_def (fst (v_commit E (v_new []) (pc_commit pc v vb))) [two_cb].
  Lemma two_session : session E pc g [] two_p two_t.
  Proof.
    eapply (ses_gadget E pc g [] unit two_g two_g (fst (p_commit E pc (p_new []) v vb)) (fst (v_commit E (v_new []) (pc_commit pc v vb)))).
    - eapply ses_commit; [apply ses_new|reflexivity].
    - constructor; [|constructor]. constructor. intros c. constructor. intros [[l r] o]. repeat constructor.
    - reflexivity.
    - reflexivity.
  Qed.
  Lemma two_satisfied tr s2 : p_create_randomized E (p_set_tr (p_pad (p_size two_p) two_p) tr) = Some (Ok s2) -> satisfies (p_asg s2) (p_cs s2).
  Proof.
    unfold p_create_randomized, two_p. cbn -[challenge_scalar append_point r1cs_2phase_domain_sep pc_commit lc_val].
    destruct (challenge_scalar E _ "c") as [[c tr']|]; [|discriminate]. cbn. intros H. apply Some_inj in H.
    match type of H with Ok ?a = _ => assert (Hs : s2 = a) by congruence end. clear H. subst s2. unfold satisfies, gates_ok, p_asg. cbn. split; [reflexivity|].
    split; [intros [|[|i]]; cbn; ring|]. repeat constructor; cbn; ring.
  Qed.
End TwoPhase.
Example C09_demo_run :
  match r1cs_prove E101 true rnd101 pc101 g101 (two_p E101 pc101 (z101 5) (z101 6)) with
  | Some (Ok (pf, _)) => forallb (fun P => negb (veqb P v0)) (validated_points (op_degree_of 0) pf) && negb (veqb (A_I2 pf) v0)
  | _ => false
  end = true.
Proof. vm_compute. reflexivity. Qed.

(** ** C10: a wrong witness is caught exactly by the batching equation *)

Theorem C10_exact : forall (F : Field) (V : VSpace F) (E : TrEnv V) pc g tr s t dbg rnd pf trf,
  session E pc g tr s t -> p_def s = [] -> gens_wf g -> (gens_capacity g < 2 ^ 32)%nat -> pcB pc <> v0 ->
  r1cs_prove E dbg rnd pc g s = Some (Ok (pf, trf)) ->
  Forall (fun P => P <> v0) (validated_points (op_degree_of (length (p_vec s))) pf) ->
  exists t2 y z x, r1cs_challenges E pf t = Some (t2, y, z, x) /\
    forall dbg' rr,
      (r1cs_verify E dbg' rr pf pc g t = Some (Ok tt) <-> rr = 0 \/ x = 0 \/ batched_constraints (p_asg s) z (p_cs s) = 0) /\
      (r1cs_verify E dbg' rr pf pc g t = Some (Ok tt) \/ r1cs_verify E dbg' rr pf pc g t = Some (Err VerificationError)).
Proof.
  intros F V E pc g tr s t dbg rnd pf trf Hs Hd Hw Hc HB Hp Hnz. destruct (session_agree E pc g tr s t Hs) as [Hi Ha].
  destruct (verify_exact E pc g dbg rnd s t pf trf Ha Hi Hw Hc HB Hp Hnz) as (s2 & t2 & tr1 & y & z & x & Hr & Hch & Hcs & Hv).
  exists t2, y, z, x. split; [exact Hch|]. rewrite (one_phase E s tr1 Hd) in Hr. apply Some_inj in Hr.
  assert (Hs2 : p_set_tr (p_set_pend (padded s) None) (r1cs_1phase_domain_sep tr1) = s2) by congruence.
  assert (Hb : batched_constraints (p_asg s2) z (p_cs s2) = batched_constraints (p_asg s) z (p_cs s)).
  { subst s2. change (p_cs (p_set_tr (p_set_pend (padded s) None) (r1cs_1phase_domain_sep tr1))) with (p_cs s).
    unfold batched_constraints. apply fsum_ext. intros q Hq. f_equal. apply lc_val_ext. intros v. exact (padded_asg s v). }
  rewrite Hb in Hv. exact Hv.
Qed.

(** With a second phase the same equation holds for the assignment and the
    constraints after the callbacks. *)
Theorem C10_exact_phase2 : forall (F : Field) (V : VSpace F) (E : TrEnv V) pc g tr s t dbg rnd pf trf,
  session E pc g tr s t -> gens_wf g -> (gens_capacity g < 2 ^ 32)%nat -> pcB pc <> v0 ->
  r1cs_prove E dbg rnd pc g s = Some (Ok (pf, trf)) ->
  Forall (fun P => P <> v0) (validated_points (op_degree_of (length (p_vec s))) pf) ->
  exists tr1 s2 t2 y z x, p_create_randomized E (p_set_tr (p_pad (p_size s) s) tr1) = Some (Ok s2) /\
    r1cs_challenges E pf t = Some (t2, y, z, x) /\ v_cs t2 = p_cs s2 /\
    forall dbg' rr,
      r1cs_verify E dbg' rr pf pc g t = Some (Ok tt) <-> rr = 0 \/ x = 0 \/ batched_constraints (p_asg s2) z (p_cs s2) = 0.
Proof.
  intros F V E pc g tr s t dbg rnd pf trf Hs Hw Hc HB Hp Hnz. destruct (session_agree E pc g tr s t Hs) as [Hi Ha].
  destruct (verify_exact E pc g dbg rnd s t pf trf Ha Hi Hw Hc HB Hp Hnz) as (s2 & t2 & tr1 & y & z & x & Hr & Hch & Hcs & Hv).
  exists tr1, s2, t2, y, z, x. rewrite p_pad_eq. split; [exact Hr|]. split; [exact Hch|]. split; [exact Hcs|]. intros dbg' rr. apply Hv.
Qed.
Print Assumptions C10_exact.
Print Assumptions C10_exact_phase2.

(** The product circuit with the wrong constant 36: the proof exists and is refused. *)
Example C10_demo : session E101 pc101 g101 [] (ex_p 36) (ex_t 36).
Proof. exact ex_session_36. Qed.
Example C10_demo_run :
  match r1cs_prove E101 true rnd101 pc101 g101 (ex_p 36) with
  | Some (Ok (pf, _)) => forallb (fun P => negb (veqb P v0)) (validated_points (op_degree_of 1) pf) &&
      match r1cs_verify E101 true (z101 77) pf pc101 g101 (ex_t 36) with Some (Err VerificationError) => true | _ => false end
  | _ => false
  end = true.
Proof. vm_compute. reflexivity. Qed.

(** ** C14: surplus R points forge a proof of any circuit *)

(** For every one-phase circuit - also an unsatisfiable one - there is a proof
    with two more [R] than [L] points that every verifier accepts. *)
Theorem C14_forgery : forall (F : Field) (V : VSpace F) (E : TrEnv V) pc g (t : VState V),
  pcB pc <> v0 -> gens_wf g -> (next_power_of_two (v_size t) <= gens_capacity g)%nat -> (gens_capacity g < 2 ^ 32)%nat ->
  (length (v_vec t) <= 17)%nat -> v_def t = [] ->
  Forall (Forall (fun x => var_in_range (v_size t) (length (v_V t)) (map snd (v_vec t)) (fst x))) (v_cs t) ->
  (forall tr lb, exists c tr', challenge_scalar E tr lb = Some (c, tr') /\ c <> 0) ->
  exists pf, length (ipp_R (pipp pf)) = (length (ipp_L (pipp pf)) + 2)%nat /\
    forall dbg rr, r1cs_verify E dbg rr pf pc g t = Some (Ok tt).
Proof. intros. apply forge; assumption. Qed.
Print Assumptions C14_forgery.

(** The circuit with the single constraint 1 = 0. *)
Definition absurd_t : VState (RegV F101) := v_constrain (v_new []) (lc_const 1).
Lemma const_env_good (F : Field) (V : VSpace F) (c : F) tr lb : c <> 0 -> exists c' tr', challenge_scalar (const_env V c) tr lb = Some (c', tr') /\ c' <> 0.
Proof. intros H. eexists _, _. split; [reflexivity|exact H]. Qed.
Lemma absurd_unsat (F : Field) (w : Var -> F) : ~ satisfies w [lc_const 1].
Proof.
  intros (H1 & _ & H3). apply Forall_cons_iff in H3 as [H3 _]. cbn [lc_val lc_const] in H3. rewrite H1 in H3.
  apply (f1_neq_0 (F := F)). rewrite <- H3. rewrite fmul_1_r, fadd_0_r. reflexivity.
Qed.
Theorem C14_forgery_refuted : exists (F : Field) (V : VSpace F) (E : TrEnv V) pc g (t : VState V) pf,
  (forall w, ~ satisfies w (v_cs t)) /\ length (ipp_R (pipp pf)) <> length (ipp_L (pipp pf)) /\
  forall dbg rr, r1cs_verify E dbg rr pf pc g t = Some (Ok tt).
Proof.
  exists F101, (RegV F101), (const_env (RegV F101) (z101 5)), pc101, g101, absurd_t.
  destruct (C14_forgery F101 (RegV F101) (const_env (RegV F101) (z101 5)) pc101 g101 absurd_t) as (pf & HR & Hok).
  - apply feqb_false. vm_compute. reflexivity.
  - apply gens_wf_new.
  - apply Nat.leb_le. vm_compute. reflexivity.
  - change (gens_capacity g101) with 8%nat. eapply Nat.lt_le_trans; [|apply (Nat.pow_le_mono_r 2 4 32); lia]. cbn. lia.
  - apply Nat.leb_le. vm_compute. reflexivity.
  - reflexivity.
  - repeat constructor.
  - intros tr lb. apply const_env_good. apply feqb_false. vm_compute. reflexivity.
  - exists pf. split; [|split; [lia|exact Hok]].
    exact (absurd_unsat F101).
Qed.
Print Assumptions C14_forgery_refuted.

(** With as many [R] as [L] points, a proof that reaches the final check has one
    scalar per point: the forgery above is the only misalignment. *)
Theorem C14_aligned_partial : forall (F : Field) (V : VSpace F) (E : TrEnv V) dbg rr pf t vt,
  v_scalars_and_points E dbg rr pf t = Some (Ok vt) -> v_def t = [] ->
  length (ipp_R (pipp pf)) = length (ipp_L (pipp pf)) ->
  length (vt_scalars vt) = length (vt_points vt) /\ length (vt_fixed vt) = (2 + 2 * next_power_of_two (v_size t))%nat.
Proof. intros. eapply tuple_well_sized; eassumption. Qed.
Print Assumptions C14_aligned_partial.

(** ** C15: no panic on decodable proofs *)

(** Missing: proofs with fewer T points or fewer R points than expected, for
    which the release-build verifier panics ([C15_short_T_refuted] below and
    [C14_short_panics_refuted]); also circuits with 18 or more vector commitments
    (C18), phase-two callbacks, and challenges that cannot be drawn or are zero. *)
Theorem C15_no_panic_partial : forall (F : Field) (V : VSpace F) (E : TrEnv V) pc g rr pf (t : VState V),
  gens_wf g -> (forall tr lb, exists c tr', challenge_scalar E tr lb = Some (c, tr') /\ c <> 0) ->
  v_def t = [] -> (length (v_vec t) <= 17)%nat ->
  Forall (Forall (fun x => var_in_range (v_size t) (length (v_V t)) (map snd (v_vec t)) (fst x))) (v_cs t) ->
  (2 * (op_degree_of (length (v_vec t)) + 1) + 1 <= length (pT pf))%nat ->
  (length (ipp_L (pipp pf)) <= length (ipp_R (pipp pf)))%nat ->
  exists r, r1cs_verify E false rr pf pc g t = Some r.
Proof. intros. apply verify_no_panic; assumption. Qed.

(** Every proof with too few T points, none of its points the identity, panics. *)
Theorem C15_short_T_panics : forall (F : Field) (V : VSpace F) (E : TrEnv V) pc g dbg rr pf (t : VState V),
  v_def t = [] -> (forall tr lb, exists c tr', challenge_scalar E tr lb = Some (c, tr') /\ c <> 0) ->
  Forall (fun P => P <> v0) ([A_I1 pf; A_O1 pf; S1 pf] ++ pT pf) ->
  (length (pT pf) < 2 * (op_degree_of (length (v_vec t)) + 1) + 1)%nat ->
  r1cs_verify E dbg rr pf pc g t = None.
Proof. intros. apply verify_short_T; assumption. Qed.
Theorem C15_short_T_refuted : exists (F : Field) (V : VSpace F) (E : TrEnv V) pc g (t : VState V) pf,
  forall dbg rr, r1cs_verify E dbg rr pf pc g t = None.
Proof.
  assert (H5 : z101 5 <> 0) by (apply feqb_false; vm_compute; reflexivity).
  exists F101, (RegV F101), (const_env (RegV F101) (z101 5)), pc101, g101, absurd_t.
  exists (mkProof (V := RegV F101) (z101 5) (z101 5) (z101 5) v0 v0 v0 [] 0 0 0 (mkIPP [] [] 0 0)).
  intros dbg rr. apply C15_short_T_panics.
  - reflexivity.
  - intros tr lb. apply const_env_good. exact H5.
  - repeat constructor; exact H5.
  - cbn. lia.
Qed.
Print Assumptions C15_no_panic_partial.
Print Assumptions C15_short_T_panics.
Print Assumptions C15_short_T_refuted.
(** the hypotheses of the positive part, for the circuit 1 = 0 *)
Example C15_demo rr : exists r, r1cs_verify (const_env (RegV F101) (z101 5)) false rr
  (mkProof (V := RegV F101) (z101 5) (z101 5) (z101 5) v0 v0 v0 (repeat (z101 3) 7) 0 0 0 (mkIPP [] [] 0 0)) pc101 g101 absurd_t = Some r.
Proof.
  apply C15_no_panic_partial.
  - apply gens_wf_new.
  - intros tr lb. apply const_env_good. apply feqb_false. vm_compute. reflexivity.
  - reflexivity.
  - apply Nat.leb_le. vm_compute. reflexivity.
  - repeat constructor.
  - cbn. lia.
  - cbn. lia.
Qed.

(** ** C16: canonical proofs *)

(** In a release build the T point at the operation degree and all T points
    beyond the degree are ignored: replacing or appending them changes nothing. *)
Theorem C16_ignored_T : forall (F : Field) (V : VSpace F) (E : TrEnv V) pc g rr pf T' (t : VState V),
  let op := op_degree_of (length (v_vec t)) in
  (forall d, (d <= 2 * (op + 1))%nat -> d <> op -> nth_error (pT pf) d = nth_error T' d) ->
  r1cs_verify E false rr (mkProof (A_I1 pf) (A_O1 pf) (S1 pf) (A_I2 pf) (A_O2 pf) (S2 pf) T' (pt_x pf) (pt_x_blinding pf) (pe_blinding pf) (pipp pf)) pc g t
  = r1cs_verify E false rr pf pc g t.
Proof.
  intros F V E pc g rr pf T' t op H. unfold r1cs_verify. rewrite (v_scalars_T_ext E rr pf T' t H). reflexivity.
Qed.
(** In a debug build only proofs with the exact T list are considered. *)
Theorem C16_debug_partial : forall (F : Field) (V : VSpace F) (E : TrEnv V) pc g rr pf (t : VState V) r,
  let op := op_degree_of (length (v_vec t)) in
  r1cs_verify E true rr pf pc g t = Some (Ok r) ->
  length (pT pf) = (2 * (op + 1) + 1)%nat /\ nth_error (pT pf) op = Some v0.
Proof.
  intros F V E pc g rr pf t r op H. unfold r1cs_verify in H.
  destruct (v_scalars_and_points E true rr pf t) as [[vt|e]|] eqn:Ev; cbn [res_bind] in H; try discriminate.
  apply v_facts_of_scalars in Ev as (t2 & y & z & u & x & w & fl & us & Hf).
  destruct (vf_dbg _ _ _ _ _ _ _ _ _ _ _ _ Hf eq_refl) as (H1 & H2 & _). auto.
Qed.
(** Two different proofs, both accepted for the satisfied product circuit. *)
Definition ex_proof35 : R1CSProof (RegV F101) :=
  the (mkProof (V := RegV F101) 0 0 0 0 0 0 [] 0 0 0 (mkIPP [] [] 0 0)) (ok_proof (r1cs_prove E101 true rnd101 pc101 g101 (ex_p 35))).
(* test data or vocabulary of statements, no code modelled *)
Definition ok_res (r : option (Res unit)) : bool := match r with Some (Ok _) => true | _ => false end.
Lemma ok_res_true r : ok_res r = true -> r = Some (Ok tt).
Proof. destruct r as [[[]|]|]; cbn; congruence. Qed.
Theorem C16_malleable_refuted : exists (F : Field) (V : VSpace F) (E : TrEnv V) pc g (t : VState V) pf pf' rr,
  length (pT pf) <> length (pT pf') /\
  r1cs_verify E false rr pf pc g t = Some (Ok tt) /\ r1cs_verify E false rr pf' pc g t = Some (Ok tt).
Proof.
  exists F101, (RegV F101), E101, pc101, g101, (ex_t 35), ex_proof35.
  exists (mkProof (A_I1 ex_proof35) (A_O1 ex_proof35) (S1 ex_proof35) (A_I2 ex_proof35) (A_O2 ex_proof35) (S2 ex_proof35)
            (pT ex_proof35 ++ [z101 42]) (pt_x ex_proof35) (pt_x_blinding ex_proof35) (pe_blinding ex_proof35) (pipp ex_proof35)), (z101 77).
  split; [cbn [pT]; rewrite app_length; cbn [length]; lia|].
  split; apply ok_res_true; vm_compute; reflexivity.
Qed.
Print Assumptions C16_ignored_T.
Print Assumptions C16_debug_partial.
Print Assumptions C16_malleable_refuted.

(** ** C17: generator capacity *)

Theorem C17_prover : forall (F : Field) (V : VSpace F) (E : TrEnv V) pc g dbg rnd (s : PState F),
  gens_wf g -> p_def s = [] ->
  ((gens_capacity g < next_power_of_two (p_size s))%nat -> r1cs_prove E dbg rnd pc g s = Some (Err InvalidGeneratorsLength)) /\
  ((next_power_of_two (p_size s) <= gens_capacity g)%nat -> forall e, r1cs_prove E dbg rnd pc g s <> Some (Err e)).
Proof. intros F V E pc g dbg rnd s Hw Hd. split; [apply prove_capacity_err; assumption|]. intros Hc e. apply prove_no_err; assumption. Qed.
(** The verifier checks the capacity last: the error is returned exactly when the
    generators are too few and the proof passed all earlier checks; with too few
    generators nothing is accepted. *)
Theorem C17_verifier : forall (F : Field) (V : VSpace F) (E : TrEnv V) pc g dbg rr pf (t : VState V),
  gens_wf g -> v_def t = [] ->
  (r1cs_verify E dbg rr pf pc g t = Some (Err InvalidGeneratorsLength) <->
   (gens_capacity g < next_power_of_two (v_size t))%nat /\ exists vt, v_scalars_and_points E dbg rr pf t = Some (Ok vt)) /\
  ((gens_capacity g < next_power_of_two (v_size t))%nat -> r1cs_verify E dbg rr pf pc g t <> Some (Ok tt)).
Proof. intros. apply verify_capacity; assumption. Qed.
Print Assumptions C17_prover.
Print Assumptions C17_verifier.
(** one generator is too few for the product circuit (two wires) on both sides *)
Example C17_demo :
  match r1cs_prove E101 true rnd101 pc101 (toy_gens PM101 1 1) (ex_p 35) with Some (Err InvalidGeneratorsLength) => true | _ => false end &&
  match r1cs_verify E101 true (z101 77) ex_proof35 pc101 (toy_gens PM101 1 1) (ex_t 35) with Some (Err InvalidGeneratorsLength) => true | _ => false end = true.
Proof. vm_compute. reflexivity. Qed.

(** ** C18: number of vector commitments *)

(** Missing: 18 or more vector commitments, where prover and verifier index past
    the table of T labels ([C18_eighteen_refuted]). *)
Theorem C18_seventeen_partial : forall (F : Field) (V : VSpace F) (E : TrEnv V) pc g tr s t dbg rnd,
  session E pc g tr s t -> p_def s = [] -> gens_wf g -> (gens_capacity g < 2 ^ 32)%nat ->
  (forall tr lb, exists c tr', challenge_scalar E tr lb = Some (c, tr') /\ c <> 0) ->
  (length (p_vec s) <= 17)%nat -> (next_power_of_two (p_size s) <= gens_capacity g)%nat ->
  Forall (Forall (fun x => p_var s (fst x) <> None)) (p_cs s) -> satisfies (p_asg s) (p_cs s) ->
  exists pf trf, r1cs_prove E dbg rnd pc g s = Some (Ok (pf, trf)) /\
    (Forall (fun P => P <> v0) (validated_points (op_degree_of (length (p_vec s))) pf) ->
     forall dbg' rr, r1cs_verify E dbg' rr pf pc g t = Some (Ok tt)).
Proof.
  intros F V E pc g tr s t dbg rnd Hs Hd Hw Hcap Hch H17 Hc Hv Hsat.
  destruct (C08_prove_total F V E pc g tr s t dbg rnd Hs Hd Hw Hch H17 Hc Hv) as (pf & trf & Hp).
  exists pf, trf. split; [exact Hp|]. intros Hnz. eapply C08_complete; eassumption.
Qed.
Theorem C18_eighteen_panics : forall (F : Field) (V : VSpace F) (E : TrEnv V) pc g tr s t dbg rnd,
  session E pc g tr s t -> p_def s = [] -> (next_power_of_two (p_size s) <= gens_capacity g)%nat -> (18 <= length (p_vec s))%nat ->
  r1cs_prove E dbg rnd pc g s = None /\ forall rr pf, r1cs_verify E dbg rr pf pc g t <> Some (Ok tt).
Proof.
  intros F V E pc g tr s t dbg rnd Hs Hd Hc H18. destruct (session_agree E pc g tr s t Hs) as [Hi Ha]. split.
  - apply prove_too_many_panics; assumption.
  - intros rr pf. apply verify_too_many. rewrite (ag_vec _ _ _ _ Ha), map_length. exact H18.
Qed.
(** a session that only makes [k] empty vector commitments *)
Fixpoint many_vec {F : Field} {V : VSpace F} (E : TrEnv V) (pc : PedersenGens V) (g : BPGens V) (k : nat) : option (PState F * VState V) :=
  match k with
  | O => Some (p_new [], v_new [])
  | S k => match many_vec E pc g k with
           | Some (s, t) => match p_commit_vec E pc g s [] 1 with
                            | Some (s', (c, _)) => Some (s', fst (v_commit_vec E t 0 c))
                            | None => None
                            end
           | None => None
           end
  end.
Lemma many_vec_spec {F : Field} {V : VSpace F} (E : TrEnv V) (pc : PedersenGens V) (g : BPGens V) : gens_wf g -> forall k, exists s t, many_vec E pc g k = Some (s, t) /\
  session E pc g [] s t /\ p_def s = [] /\ length (p_vec s) = k /\ p_cs s = [] /\ p_size s = 0%nat.
Proof.
  intros (Gr & Hr & HG & HH & _). induction k as [|k (s & t & H & Hs & Hd & Hl & Hc & Hz)]; [exists (p_new []), (v_new []); repeat split; constructor|].
  cbn [many_vec]. rewrite H. destruct (p_commit_vec E pc g s [] 1) as [[s' [c us]]|] eqn:Ec.
  2:{ unfold p_commit_vec, share_G in Ec. rewrite HG in Ec. cbn [option_map opt_bind] in Ec. discriminate Ec. }
  exists s', (fst (v_commit_vec E t 0 c)). split; [reflexivity|]. split; [exact (ses_commit_vec E pc g [] s t [] 1 s' c us Hs Ec)|].
  unfold p_commit_vec, share_G in Ec. rewrite HG in Ec. cbn [option_map opt_bind length firstn Nat.eqb guard] in Ec.
  apply Some_inj in Ec. match type of Ec with (?a, _) = _ => assert (Hs' : s' = a) by congruence end. clear Ec. subst s'.
  cbn [p_def p_vec p_cs]. rewrite Hd, Hc, app_length, Hl. cbn [length]. split; [reflexivity|]. split; [lia|]. split; [reflexivity|].
  unfold p_size in *. cbn [p_vec p_aL]. rewrite fold_left_app. cbn [fold_left snd length]. rewrite Hz. reflexivity.
Qed.
Theorem C18_eighteen_refuted : exists (F : Field) (V : VSpace F) (E : TrEnv V) pc g s t,
  session E pc g [] s t /\ length (p_vec s) = 18%nat /\ satisfies (p_asg s) (p_cs s) /\ (p_size s <= gens_capacity g)%nat /\
  forall dbg rnd, r1cs_prove E dbg rnd pc g s = None.
Proof.
  exists F101, (RegV F101), E101, pc101, g101.
  destruct (many_vec_spec (F := F101) (V := RegV F101) E101 pc101 g101 (gens_wf_new _ _ _ 8 1) 18) as (s & t & _ & Hs & Hd & Hl & Hc & Hz).
  exists s, t. split; [exact Hs|]. split; [exact Hl|]. split; [|split; [rewrite Hz; lia|]].
  - destruct (session_agree _ _ _ _ _ _ Hs) as [Hi _]. rewrite Hc. split; [reflexivity|]. split; [|constructor].
    exact (p_asg_gates s Hi).
  - intros dbg rnd. apply (C18_eighteen_panics F101 (RegV F101) E101 pc101 g101 [] s t dbg rnd Hs Hd); [|lia].
    rewrite Hz. change (next_power_of_two 0) with 1%nat. change (gens_capacity g101) with 8%nat. lia.
Qed.
Print Assumptions C18_seventeen_partial.
Print Assumptions C18_eighteen_panics.
Print Assumptions C18_eighteen_refuted.

(** ** C19, C20: batches of equal size *)

(** A batch entry: what the verifier was given for one proof. *)
Record Entry {F : Field} (V : VSpace F) := mkEntry { en_dbg : bool; en_rr : F; en_pf : R1CSProof V; en_t : VState V }.
Arguments mkEntry {F V}. Arguments en_dbg {F V}. Arguments en_rr {F V}. Arguments en_pf {F V}. Arguments en_t {F V}.
(** The tuple the verifier computed for the entry, and the entry's own verdict. *)
Definition has_tuple {F : Field} {V : VSpace F} (E : TrEnv V) (e : Entry V) (vt : VTuple V) : Prop :=
  v_scalars_and_points E (en_dbg e) (en_rr e) (en_pf e) (en_t e) = Some (Ok vt).
(* test data or vocabulary of statements, no code modelled *)
Definition accepted {F : Field} {V : VSpace F} (E : TrEnv V) pc g (e : Entry V) : Prop :=
  r1cs_verify E (en_dbg e) (en_rr e) (en_pf e) pc g (en_t e) = Some (Ok tt).
(** One-phase circuits of padded size [N], proofs with as many R as L points. *)
Definition entry_ok {F : Field} {V : VSpace F} (N : nat) (e : Entry V) : Prop :=
  v_def (en_t e) = [] /\ next_power_of_two (v_size (en_t e)) = N /\ length (ipp_R (pipp (en_pf e))) = length (ipp_L (pipp (en_pf e))).

Lemma Forall2_len {A B} (R : A -> B -> Prop) l l' : Forall2 R l l' -> length l = length l'.
Proof. induction 1; cbn; congruence. Qed.
Lemma entries_sized {F : Field} {V : VSpace F} (E : TrEnv V) N es vts : Forall2 (has_tuple (V:=V) E) es vts -> Forall (entry_ok N) es -> Forall (well_sized N) vts.
Proof.
  induction 1 as [|e vt es vts He _ IH]; intros Ho; [constructor|]. apply Forall_cons_iff in Ho as [(H1 & H2 & H3) Ho].
  constructor; [|auto]. rewrite <- H2. eapply tuple_well_sized; eassumption.
Qed.
Lemma entries_checks {F : Field} {V : VSpace F} (E : TrEnv V) pc g N es vts : Forall2 (has_tuple (V:=V) E) es vts -> Forall (entry_ok N) es ->
  (Forall (accepted E pc g) es <-> Forall (checks pc g N) vts).
Proof.
  induction 1 as [|e vt es vts He _ IH]; intros Ho; [split; constructor|]. apply Forall_cons_iff in Ho as [Ho1 Ho]. specialize (IH Ho).
  assert (Hv : accepted E pc g e <-> checks pc g N vt).
  { destruct Ho1 as (H1 & <- & H3). apply verify_checks; [exact He|]. eapply tuple_well_sized; eassumption. }
  rewrite !Forall_cons_iff. tauto.
Qed.
Lemma accepted_tuple {F : Field} {V : VSpace F} (E : TrEnv V) pc g e : accepted (V:=V) E pc g e -> exists vt, has_tuple E e vt.
Proof.
  unfold accepted, has_tuple, r1cs_verify. destruct (v_scalars_and_points E _ _ _ _) as [[vt|?]|]; cbn [res_bind]; try discriminate. eauto.
Qed.
Lemma accepted_tuples {F : Field} {V : VSpace F} (E : TrEnv V) pc g es : Forall (accepted (V:=V) E pc g) es -> exists vts, Forall2 (has_tuple E) es vts.
Proof.
  induction 1 as [|e es He _ (vts & IH)]; [eexists; constructor|]. destruct (accepted_tuple _ _ _ _ He) as (vt & Hvt).
  exists (vt :: vts). constructor; assumption.
Qed.

Theorem C19_batch_complete : forall (F : Field) (V : VSpace F) (E : TrEnv V) pc g N (es : list (Entry V)),
  gens_wf g -> (N <= gens_capacity g)%nat -> es <> [] -> Forall (entry_ok N) es -> Forall (accepted E pc g) es ->
  exists vts, Forall2 (has_tuple E) es vts /\
    forall ws, S (length ws) = length es -> batch_verify vts ws pc g = Some (Ok tt).
Proof.
  intros F V E pc g N es Hw Hc Hne Ho Ha. destruct (accepted_tuples _ _ _ _ Ha) as (vts & Hvt). exists vts. split; [exact Hvt|].
  intros ws Hws. pose proof (Forall2_len _ _ _ Hvt) as Hl. pose proof (entries_sized _ _ _ _ Hvt Ho) as Hsz. pose proof (proj1 (entries_checks E pc g N es vts Hvt Ho) Ha) as Hch.
  destruct vts as [|vt vts]; [destruct es; [congruence|discriminate]|]. apply (batch_complete pc g N); try assumption. cbn [length] in Hl. lia.
Qed.

Theorem C20_batch_sound : forall (F : Field) (V : VSpace F) (E : TrEnv V) pc g N (es : list (Entry V)) vts,
  gens_wf g -> (N <= gens_capacity g)%nat -> es <> [] -> Forall (entry_ok N) es -> Forall2 (has_tuple E) es vts ->
  ~ Forall (accepted E pc g) es ->
  (forall ws, S (length ws) = length es -> batch_verify vts ws pc g <> Some (Ok tt)) \/
  (exists j, (S j < length es)%nat /\ forall ws, S (length ws) = length es -> forall c c',
     batch_verify vts (upd ws j (fun _ => c)) pc g = Some (Ok tt) ->
     batch_verify vts (upd ws j (fun _ => c')) pc g = Some (Ok tt) -> c = c').
Proof.
  intros F V E pc g N es vts Hw Hc Hne Ho Hvt Hbad. pose proof (Forall2_len _ _ _ Hvt) as Hl. pose proof (entries_sized _ _ _ _ Hvt Ho) as Hsz.
  assert (Hbad' : ~ Forall (checks pc g N) vts) by (rewrite <- (entries_checks E pc g N es vts Hvt Ho); exact Hbad).
  destruct vts as [|vt vts]; [destruct es; [congruence|discriminate]|]. cbn [length] in Hl.
  destruct (batch_sound pc g N vt vts Hw Hc Hsz Hbad') as [H|(j & Hj & H)].
  - left. intros ws Hws. apply H. lia.
  - right. exists j. split; [lia|]. intros ws Hws c c'. apply H. lia.
Qed.
(** A batch of one proof is accepted exactly when the proof is. *)
Theorem C20_batch_of_one : forall (F : Field) (V : VSpace F) (E : TrEnv V) pc g (e : Entry V) vt,
  has_tuple E e vt -> (batch_verify [vt] [] pc g = Some (Ok tt) <-> accepted E pc g e).
Proof.
  intros F V E pc g e vt He. unfold accepted, r1cs_verify. unfold has_tuple in He. rewrite He. cbn [res_bind]. reflexivity.
Qed.
Print Assumptions C19_batch_complete.
Print Assumptions C20_batch_sound.
Print Assumptions C20_batch_of_one.

(** Concrete batches: the product circuit twice; the same with one proof for a
    wrong product; and (C21) the product circuit with a circuit of one wire. *)
Definition ex_proof (s : PState F101) : R1CSProof (RegV F101) :=
  the (mkProof (V := RegV F101) 0 0 0 0 0 0 [] 0 0 0 (mkIPP [] [] 0 0)) (ok_proof (r1cs_prove E101 true rnd101 pc101 g101 s)).
(* test data or vocabulary of statements, no code modelled *)
Definition one_gadget : Prog F101 unit :=
  PMul (lc_var (Committed 0)) (lc_const (z101 3)) (fun '(l, r, o) => PConstrain (lc_sub (lc_var o) (lc_const (z101 15))) (PRet tt)).
(* test data or vocabulary of statements, no code modelled *)
Definition one_p := fst (the (p_new [], tt) (prun E101 one_gadget (fst (p_commit E101 pc101 (p_new []) (z101 5) (z101 6))))).
(* test data or vocabulary of statements, no code modelled *)
Definition one_t := fst (the (v_new [], tt) (vrun E101 one_gadget (fst (v_commit E101 (v_new []) (fst (snd (p_commit E101 pc101 (p_new []) (z101 5) (z101 6)))))))).
(* test data or vocabulary of statements, no code modelled *)
Definition ex_tuple (rr : Z) (pf : R1CSProof (RegV F101)) (t : VState (RegV F101)) : VTuple (RegV F101) :=
  match v_scalars_and_points E101 true (z101 rr) pf t with Some (Ok vt) => vt | _ => mkVT (V := RegV F101) [] [] [] end.
Lemma ex_tuple_spec rr pf t : accepted E101 pc101 g101 (mkEntry true (z101 rr) pf t) -> has_tuple E101 (mkEntry true (z101 rr) pf t) (ex_tuple rr pf t).
Proof.
  intros A. destruct (accepted_tuple _ _ _ _ A) as (vt & H). unfold ex_tuple. unfold has_tuple in *. cbn [en_dbg en_rr en_pf en_t] in *.
  destruct (v_scalars_and_points E101 true (z101 rr) pf t) as [[vt'|]|]; [reflexivity|discriminate|discriminate].
Qed.
Example C19_demo :
  ok_res (r1cs_verify E101 true (z101 77) (ex_proof (ex_p 35)) pc101 g101 (ex_t 35)) &&
  ok_res (batch_verify [ex_tuple 77 (ex_proof (ex_p 35)) (ex_t 35); ex_tuple 78 (ex_proof (ex_p 35)) (ex_t 35)] [z101 55] pc101 g101) &&
  negb (ok_res (r1cs_verify E101 true (z101 77) (ex_proof (ex_p 36)) pc101 g101 (ex_t 36))) &&
  negb (ok_res (batch_verify [ex_tuple 77 (ex_proof (ex_p 35)) (ex_t 35); ex_tuple 78 (ex_proof (ex_p 36)) (ex_t 36)] [z101 55] pc101 g101)) = true.
Proof. vm_compute. reflexivity. Qed.

(** ** C21: batches of different sizes *)

(** Two honest proofs, each accepted on its own, whose batch is rejected: the
    fixed-base scalars of the larger circuit are truncated and misaligned. *)
Theorem C21_sizes_refuted : exists (F : Field) (V : VSpace F) (E : TrEnv V) pc g (e1 e2 : Entry V) vt1 vt2 w,
  gens_wf g /\ accepted E pc g e1 /\ accepted E pc g e2 /\ has_tuple E e1 vt1 /\ has_tuple E e2 vt2 /\
  next_power_of_two (v_size (en_t e1)) <> next_power_of_two (v_size (en_t e2)) /\
  batch_verify [vt1; vt2] [w] pc g <> Some (Ok tt).
Proof.
  exists F101, (RegV F101), E101, pc101, g101.
  exists (mkEntry true (z101 77) (ex_proof (ex_p 35)) (ex_t 35)), (mkEntry true (z101 78) (ex_proof one_p) one_t).
  assert (A1 : accepted E101 pc101 g101 (mkEntry true (z101 77) (ex_proof (ex_p 35)) (ex_t 35))) by (apply ok_res_true; vm_compute; reflexivity).
  assert (A2 : accepted E101 pc101 g101 (mkEntry true (z101 78) (ex_proof one_p) one_t)) by (apply ok_res_true; vm_compute; reflexivity).
  exists (ex_tuple 77 (ex_proof (ex_p 35)) (ex_t 35)), (ex_tuple 78 (ex_proof one_p) one_t), (z101 55).
  split; [apply gens_wf_new|]. split; [exact A1|]. split; [exact A2|].
  split; [apply ex_tuple_spec; exact A1|]. split; [apply ex_tuple_spec; exact A2|].
  split; [vm_compute; discriminate|].
  intros H. assert (Hf : ok_res (batch_verify [ex_tuple 77 (ex_proof (ex_p 35)) (ex_t 35); ex_tuple 78 (ex_proof one_p) one_t] [z101 55] pc101 g101) = false) by (vm_compute; reflexivity).
  rewrite H in Hf. discriminate.
Qed.
(** An empty batch panics. *)
Theorem C21_empty_refuted : forall (F : Field) (V : VSpace F) ws pc g, batch_verify (V := V) [] ws pc g = None.
Proof. reflexivity. Qed.
Print Assumptions C21_sizes_refuted.
Print Assumptions C21_empty_refuted.

(** ** C62: identity points are rejected *)

(** The points of an accepted proof that enter the first phase, every
    T-commitment that is used and every pair (L, R) are different from the
    identity (transcript.rs 75-88 via verifier.rs 491-545 and
    inner_product_proof.rs 262-268). The phase-two points are not checked. *)
Theorem C62_no_identity : forall (F : Field) (V : VSpace F) (E : TrEnv V) dbg rr pf pc g (t : VState V),
  r1cs_verify E dbg rr pf pc g t = Some (Ok tt) ->
  let op := op_degree_of (length (v_vec t)) in
  A_I1 pf <> v0 /\ A_O1 pf <> v0 /\ S1 pf <> v0 /\
  (forall d, (d <= 2 * (op + 1))%nat -> d <> op -> exists T, nth_error (pT pf) d = Some T /\ T <> v0) /\
  (forall i L, nth_error (ipp_L (pipp pf)) i = Some L -> L <> v0 /\ exists R, nth_error (ipp_R (pipp pf)) i = Some R /\ R <> v0).
Proof.
  intros F V E dbg rr pf pc g t H op. unfold r1cs_verify in H.
  destruct (v_scalars_and_points E dbg rr pf t) as [[vt|]|] eqn:Hs; try discriminate.
  apply v_facts_of_scalars in Hs as (t2 & y & z & u & x & w & fl & us & [_ (N1 & N2 & N3) _ (try_ & trz & trT & tru & trx & trw & tri & _ & _ & HT & _ & _ & _ & Hv) _ _]).
  fold op in HT. split; [exact N1|]. split; [exact N2|]. split; [exact N3|]. split.
  - intros d Hd Hne. assert (Hin : In d (seq 0 (2 * (op + 1) + 1))) by (apply in_seq; lia).
    clearbody op. clear -HT Hin Hne. revert trz HT Hin. generalize (seq 0 (2 * (op + 1) + 1)) as ds.
    induction ds as [|e ds IH]; intros tr HT Hin; [contradiction|]. cbn in HT. destruct (Nat.eqb_spec e op) as [->|He].
    + destruct Hin as [Hin|Hin]; [congruence|]. eapply IH; eassumption.
    + destruct (nth_error T_LABELS e) as [lb|]; [|discriminate]. cbn in HT.
      destruct (nth_error (pT pf) e) as [T|] eqn:HTe; [|discriminate]. cbn in HT. unfold validate_and_append_point in HT.
      destruct (veqb T v0) eqn:Hz; [discriminate|]. destruct Hin as [->|Hin]; [|eapply IH; eassumption].
      exists T. split; [exact HTe|]. intros ->. rewrite veqb_refl in Hz. discriminate.
  - apply verification_scalars_spec in Hv as (us' & tr' & Hc & _ & _ & Hl & _).
    clear -Hc Hl. revert Hc Hl. generalize (innerproduct_domain_sep trw (N.of_nat (next_power_of_two (v_size t2)))) as tr.
    generalize (ipp_R (pipp pf)) as Rs. generalize (ipp_L (pipp pf)) as Ls. intros Ls. revert us'.
    induction Ls as [|L Ls IH]; intros us' [|R Rs] tr Hc Hl i L0 Hi; try (destruct i; discriminate).
    + cbn in Hc. injection Hc as <- <-. discriminate.
    + cbn in Hc. unfold validate_and_append_point in Hc.
      destruct (veqb L v0) eqn:Z1; [discriminate|]. destruct (veqb R v0) eqn:Z2; [discriminate|].
      destruct (challenge_scalar E _ "u") as [[c tr3]|]; [|discriminate]. cbn in Hc.
      destruct (ipp_challenges E tr3 Ls Rs) as [[[us1 tr4]|]|] eqn:Hc1; try discriminate. cbn in Hc. injection Hc as <- <-.
      destruct i as [|i]; [|exact (IH us1 Rs tr3 Hc1 (f_equal Nat.pred Hl) i L0 Hi)].
      injection Hi as <-. split; [intros ->; rewrite veqb_refl in Z1; discriminate|].
      exists R. split; [reflexivity|]. intros ->. rewrite veqb_refl in Z2. discriminate.
Qed.
Print Assumptions C62_no_identity.
(** For the three first-phase points the answer is the error, whatever the
    circuit and the rest of the proof. *)
Theorem C62_error : forall (F : Field) (V : VSpace F) (E : TrEnv V) rr pf pc g (t : VState V),
  A_I1 pf = v0 \/ A_O1 pf = v0 \/ S1 pf = v0 -> r1cs_verify E false rr pf pc g t = Some (Err VerificationError).
Proof.
  intros F V E rr pf pc g t H. unfold r1cs_verify, v_scalars_and_points. cbn [negb orb guard]. unfold validate, validate_and_append_point.
  assert (Z : veqb (v0 : V) v0 = true) by (apply veqb_refl).
  destruct (veqb (A_I1 pf) v0) eqn:Z1; [reflexivity|]. destruct (veqb (A_O1 pf) v0) eqn:Z2; [reflexivity|].
  destruct (veqb (S1 pf) v0) eqn:Z3; [reflexivity|]. exfalso. destruct H as [H|[H|H]]; [rewrite H in Z1|rewrite H in Z2|rewrite H in Z3]; congruence.
Qed.
Print Assumptions C62_error.
(** The honest proof of [C08_demo_run] is accepted; with [S1] replaced by the
    identity it is rejected. *)
Example C62_demo :
  match r1cs_prove E101 true rnd101 pc101 g101 (ex_p 35) with
  | Some (Ok (pf, _)) =>
      let pf' := mkProof (V := RegV F101) (A_I1 pf) (A_O1 pf) v0 (A_I2 pf) (A_O2 pf) (S2 pf) (pT pf) (pt_x pf) (pt_x_blinding pf) (pe_blinding pf) (pipp pf) in
      match r1cs_verify E101 false (z101 3) pf pc101 g101 (ex_t 35), r1cs_verify E101 false (z101 3) pf' pc101 g101 (ex_t 35) with
      | Some (Ok tt), Some (Err VerificationError) => true | _, _ => false end
  | _ => false
  end = true.
Proof. vm_compute. reflexivity. Qed.
