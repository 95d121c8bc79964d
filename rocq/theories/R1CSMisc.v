(** * Capacity errors, panics, malleability and the limit on vector commitments *)
From Verif Require Import R1CSSpec UtilProofs CSProofs Lockstep FlatProofs CSMore R1CSPoly R1CSAlg R1CSProofs R1CSCore R1CSMain R1CSVerif R1CSMore R1CSTotal IPPSpec IPPProofs.
Local Open Scope F_scope.

Section Misc.
  Context {F : Field} {V : VSpace F}.
  Add Field FFmisc : (f_th F).
  Variable E : TrEnv V.
  Variable pc : PedersenGens V.
  Variable g : BPGens V.
  Implicit Types (s : PState F) (t : VState V).

  (** ** the prover *)
  Lemma prove_capacity_err dbg rnd s :
    gens_wf g -> p_def s = [] -> (gens_capacity g < next_power_of_two (p_size s))%nat ->
    r1cs_prove E dbg rnd pc g s = Some (Err InvalidGeneratorsLength).
  Proof.
    intros (Gr & Hr & HG & HH & LG & LH) Hd Hc. unfold r1cs_prove. rewrite p_pad_eq.
    change (p_size (p_set_tr (padded s) ?a)) with (p_size (padded s)). rewrite padded_size.
    destruct (Nat.ltb_spec (gens_capacity g) (p_size s)) as [|Hc1]; [reflexivity|].
    unfold share_G, share_H. rewrite HG, HH. cbn [option_map opt_bind].
    match goal with |- context [p_create_randomized E (p_set_tr (p_set_tr (padded s) ?a) ?b)] => change (p_set_tr (p_set_tr (padded s) a) b) with (p_set_tr (padded s) b) end.
    rewrite (one_phase _ _ _ Hd). cbn [res_bind].
    change (p_size (p_set_tr (p_set_pend (padded s) ?b) ?a)) with (p_size (padded s)). rewrite padded_size.
    destruct (Nat.ltb_spec (gens_capacity g) (next_power_of_two (p_size s))) as [|]; [reflexivity|lia].
  Qed.

  Lemma prove_no_err dbg rnd s e :
    p_def s = [] -> (next_power_of_two (p_size s) <= gens_capacity g)%nat ->
    r1cs_prove E dbg rnd pc g s <> Some (Err e).
  Proof.
    intros Hd Hc. pose proof (next_power_of_two_ge (p_size s)) as Hge. unfold r1cs_prove. rewrite p_pad_eq.
    change (p_size (p_set_tr (padded s) ?a)) with (p_size (padded s)). rewrite padded_size.
    destruct (Nat.ltb_spec (gens_capacity g) (p_size s)) as [|_]; [lia|].
    destruct (share_G g 0 (p_size s)) as [gx0|]; cbn [opt_bind]; [|discriminate].
    destruct (share_H g 0 (p_size s)) as [gx1|]; cbn [opt_bind]; [|discriminate].
    match goal with |- context [p_create_randomized E (p_set_tr (p_set_tr (padded s) ?a) ?b)] => change (p_set_tr (p_set_tr (padded s) a) b) with (p_set_tr (padded s) b) end.
    rewrite (one_phase _ _ _ Hd). cbn [res_bind].
    change (p_size (p_set_tr (p_set_pend (padded s) ?b) ?a)) with (p_size (padded s)). rewrite padded_size.
    destruct (Nat.ltb_spec (gens_capacity g) (next_power_of_two (p_size s))) as [|_]; [lia|].
    destruct (_ || _); cbn [guard]; [|discriminate].
    destruct (share_G g 0 _) as [gx2|]; cbn [opt_bind]; [|discriminate].
    destruct (share_H g 0 _) as [gx3|]; cbn [opt_bind]; [|discriminate].
    destruct (challenge_scalar E _ "y") as [[y try_]|]; cbn [opt_bind]; [|discriminate].
    destruct (challenge_scalar E _ "z") as [[z trz]|]; cbn [opt_bind]; [|discriminate].
    destruct (p_flatten _ z) as [fl|]; cbn [opt_bind]; [|discriminate].
    destruct (finv_opt y) as [yi|]; cbn [opt_bind]; [|discriminate].
    destruct (build_polys _ _ _ _ _ _ _ _ _ _ _ _) as [[[l r] tp]|]; cbn [opt_bind]; [|discriminate].
    destruct (append_Ts E _ _ _ _) as [trT|]; cbn [opt_bind]; [|discriminate].
    destruct (challenge_scalar E trT "u") as [[u tru]|]; cbn [opt_bind]; [|discriminate].
    destruct (challenge_scalar E tru "x") as [[x trx]|]; cbn [opt_bind]; [|discriminate].
    destruct (vp_eval l x) as [lx|]; cbn [opt_bind]; [|discriminate].
    destruct (vp_eval r x) as [rx|]; cbn [opt_bind]; [|discriminate].
    destruct (negb dbg || _); cbn [guard]; [|discriminate].
    destruct (challenge_scalar E _ "w") as [[w trw]|]; cbn [opt_bind]; [|discriminate].
    destruct (share_G g 0 _) as [gx4|]; cbn [opt_bind]; [|discriminate].
    destruct (share_H g 0 _) as [gx5|]; cbn [opt_bind]; [|discriminate].
    destruct (ipp_create E _ _ _ _ _ _ _ _) as [[ipp tri]|]; cbn [opt_bind]; discriminate.
  Qed.

  (** second-phase multipliers together with vector commitments *)
  Lemma prove_phase2_vec dbg rnd s :
    gens_wf g -> p_vec s <> [] ->
    (forall tr, exists s2, p_create_randomized E (p_set_tr (padded s) tr) = Some (Ok s2) /\
       (p_size s < p_size s2)%nat /\ (next_power_of_two (p_size s2) <= gens_capacity g)%nat) ->
    r1cs_prove E dbg rnd pc g s = None.
  Proof.
    intros (Gr & Hr & HG & HH & LG & LH) Hv Hph. unfold r1cs_prove. rewrite p_pad_eq.
    change (p_size (p_set_tr (padded s) ?a)) with (p_size (padded s)). rewrite padded_size.
    destruct (Hph []) as (s9 & _ & Hlt9 & Hc9). destruct (Nat.ltb_spec (gens_capacity g) (p_size s)) as [Hcap|_].
    { pose proof (next_power_of_two_ge (p_size s9)). lia. }
    unfold share_G, share_H. rewrite HG, HH. cbn [option_map opt_bind].
    match goal with |- context [p_create_randomized E (p_set_tr (p_set_tr (padded s) ?a) ?b)] => change (p_set_tr (p_set_tr (padded s) a) b) with (p_set_tr (padded s) b) end.
    match goal with |- context [p_create_randomized E (p_set_tr (padded s) ?b)] => destruct (Hph b) as (s2 & Hs2 & Hlt & Hc) end.
    rewrite Hs2. cbn [res_bind]. destruct (Nat.ltb_spec (gens_capacity g) (next_power_of_two (p_size s2))) as [|_]; [lia|].
    destruct (create_randomized_frame _ _ _ Hs2) as (_ & _ & Hvec). change (p_vec (p_set_tr (padded s) _)) with (p_vec s) in Hvec. rewrite Hvec.
    destruct (p_vec s); [contradiction|]. destruct (Nat.ltb_spec 0 (p_size s2 - p_size s)); [reflexivity|lia].
  Qed.

  (** ** labels *)
  Lemma append_Ts_labels op (T : list V) : forall ds tr tr', append_Ts E op ds T tr = Some tr' -> forall d, In d ds -> d <> op -> (d < 41)%nat.
  Proof.
    induction ds as [|d ds IH]; intros tr tr' H d' Hin Hne; cbn [append_Ts] in H; [destruct Hin|].
    destruct (Nat.eqb_spec d op) as [->|Hd].
    - destruct Hin as [->|Hin]; [contradiction|]. eapply IH; eassumption.
    - destruct (nth_error T_LABELS d) as [lb|] eqn:El; [|discriminate]. cbn [opt_bind] in H.
      destruct (nth_error T d); [|discriminate]. cbn [opt_bind] in H. destruct Hin as [<-|Hin]; [|eapply IH; eassumption].
      change 41%nat with (length T_LABELS). apply nth_error_Some. congruence.
  Qed.
  Lemma validate_Ts_labels op (T : list V) : forall ds tr tr', validate_Ts E op ds T tr = Some (Ok tr') -> forall d, In d ds -> d <> op -> (d < 41)%nat.
  Proof.
    induction ds as [|d ds IH]; intros tr tr' H d' Hin Hne; cbn [validate_Ts] in H; [destruct Hin|].
    destruct (Nat.eqb_spec d op) as [->|Hd].
    - destruct Hin as [->|Hin]; [contradiction|]. eapply IH; eassumption.
    - destruct (nth_error T_LABELS d) as [lb|] eqn:El; [|discriminate]. cbn [opt_bind] in H.
      destruct (nth_error T d); [|discriminate]. cbn [opt_bind] in H.
      destruct (validate_and_append_point E tr lb v); [|discriminate]. destruct Hin as [<-|Hin]; [|eapply IH; eassumption].
      change 41%nat with (length T_LABELS). apply nth_error_Some. congruence.
  Qed.
  Lemma op_ge_18 ncomm : (18 <= ncomm)%nat -> (20 <= op_degree_of ncomm)%nat.
  Proof. intros H. unfold op_degree_of. pose proof (Nat.div_le_mono 18 ncomm 2 ltac:(lia) H) as Hd. change (18 / 2)%nat with 9%nat in Hd. lia. Qed.

  Lemma prove_too_many dbg rnd s r : (18 <= length (p_vec s))%nat -> gates_inv s -> r1cs_prove E dbg rnd pc g s <> Some (Ok r).
  Proof.
    intros H18 Hi H. destruct r as [pf trf]. apply prove_run in H as (s2 & tr1 & tr3 & y & z & u & x & w & try_ & trz & trT & tru & trx & trw & fl & l & r & tp & lx & rx & Gr & Hr & R).
    pose proof (rn_Ts _ _ _ _ _ _ _ _ _ _ _ _ _ _ _ _ _ _ _ _ _ _ _ _ _ _ _ _ _ _ R) as HT.
    pose proof (rn_polys _ _ _ _ _ _ _ _ _ _ _ _ _ _ _ _ _ _ _ _ _ _ _ _ _ _ _ _ _ _ R) as HP.
    unfold build_polys in HP.
    repeat match type of HP with opt_bind ?a _ = _ => destruct a as [?|] eqn:?; cbn [opt_bind] in HP; [|discriminate] end.
    destruct p as [l0 r0]. destruct (vp_inner_product l0 r0) as [t0|]; cbn [opt_bind] in HP; [|discriminate].
    match type of HP with guard ?b _ = _ => destruct b eqn:Eb; cbn [guard] in HP; [|discriminate] end. apply Nat.eqb_eq in Eb.
    assert (t0 = tp) by congruence. subst t0.
    pose proof (op_ge_18 _ H18) as Hop.
    assert (Hd : (2 * (op_degree_of (length (p_vec s)) + 1) < 41)%nat).
    { eapply (append_Ts_labels _ _ _ _ _ HT); [apply in_seq; lia|lia]. }
    lia.
  Qed.
  Lemma verify_too_many dbg rr pf t : (18 <= length (v_vec t))%nat -> r1cs_verify E dbg rr pf pc g t <> Some (Ok tt).
  Proof.
    intros H18 H. unfold r1cs_verify in H.
    destruct (v_scalars_and_points E dbg rr pf t) as [[vt|e]|] eqn:Ev; cbn [res_bind] in H; try discriminate. clear H.
    apply v_facts_of_scalars in Ev as (t2 & y & z & u & x & w & fl & us & Hf).
    destruct (vf_chal _ _ _ _ _ _ _ _ _ _ _ _ Hf) as (try_ & trz & trT & tru & trx & trw & tri & _ & _ & HVT & _).
    pose proof (op_ge_18 _ H18) as Hop.
    assert (Hd : (2 * (op_degree_of (length (v_vec t)) + 1) < 41)%nat).
    { eapply (validate_Ts_labels _ _ _ _ _ HVT); [apply in_seq; lia|lia]. }
    lia.
  Qed.
  (** in a one-phase circuit the prover with too many commitments panics *)
  Lemma prove_too_many_panics dbg rnd s : (18 <= length (p_vec s))%nat -> gates_inv s -> p_def s = [] ->
    (next_power_of_two (p_size s) <= gens_capacity g)%nat -> r1cs_prove E dbg rnd pc g s = None.
  Proof.
    intros H18 Hi Hd Hc. destruct (r1cs_prove E dbg rnd pc g s) as [[r|e]|] eqn:Ep; [|exfalso|reflexivity].
    - exfalso. exact (prove_too_many _ _ _ _ H18 Hi Ep).
    - exact (prove_no_err _ _ _ _ Hd Hc Ep).
  Qed.

  (** ** the verifier *)
  Lemma v_facts_fixed_length dbg rr pf t t2 y z u x w fl us : v_facts E dbg pf t t2 y z u x w fl us ->
    length (vt_fixed (run_tuple rr pf t2 (v_size t) (v_size t2) (op_degree_of (length (v_vec t))) y u x w fl us)) = (2 + 2 * next_power_of_two (v_size t2))%nat.
  Proof.
    intros [_ _ Hr (try_ & trz & trT & tru & trx & trw & tri & _ & _ & _ & _ & _ & _ & Hvsc) Hfl _].
    destruct (v_size_after E t _ t2 Hr) as (Hsn & Hn1 & Hvec & HV).
    destruct (v_flatten_shape _ _ _ Hfl) as (WL & WR & WO & WV & WVC).
    pose proof (proj1 (verification_scalars_spec E _ _ _ _) Hvsc) as (us' & tr' & K1 & K2 & K3 & K4 & K5).
    assert (Lsv : length (svec us) = next_power_of_two (v_size t2)).
    { assert (Hs : svec us = svec us') by congruence. rewrite Hs, svec_length, K4. symmetry. exact K3. }
    set (N := next_power_of_two (v_size t2)) in *. assert (HnN : (v_size t2 <= N)%nat) by apply next_power_of_two_ge.
    unfold run_tuple. fold N. cbn [vt_fixed length]. rewrite app_length, zipw_length, combine_length, map_length, seq_length, !app_length, zipw_length,
        !repeat_length, exp_iter_length, WR, Lsv. lia.
  Qed.
  Lemma v_facts_us dbg pf t t2 y z u x w fl us : v_facts E dbg pf t t2 y z u x w fl us ->
    length us = length (ipp_L (pipp pf)) /\ next_power_of_two (v_size t2) = (2 ^ length (ipp_L (pipp pf)))%nat.
  Proof.
    intros [_ _ Hr (try_ & trz & trT & tru & trx & trw & tri & _ & _ & _ & _ & _ & _ & Hvsc) Hfl _].
    pose proof (proj1 (verification_scalars_spec E _ _ _ _) Hvsc) as (us' & tr' & K1 & K2 & K3 & K4 & K5).
    split; [|exact K3]. rewrite <- K4. assert (Hs : map (fun u => u * u) us = map (fun u => u * u) us') by congruence.
    apply (f_equal (@length F)) in Hs. rewrite !map_length in Hs. exact Hs.
  Qed.
  Lemma v_facts_aligned dbg rr pf t t2 y z u x w fl us : v_facts E dbg pf t t2 y z u x w fl us ->
    length (ipp_R (pipp pf)) = length (ipp_L (pipp pf)) ->
    let vt := run_tuple rr pf t2 (v_size t) (v_size t2) (op_degree_of (length (v_vec t))) y u x w fl us in
    length (vt_scalars vt) = length (vt_points vt).
  Proof.
    intros Hf HR vt. destruct (v_facts_us _ _ _ _ _ _ _ _ _ _ _ Hf) as (Lus & _). destruct Hf as [_ _ Hr _ Hfl _].
    destruct (v_size_after E t _ t2 Hr) as (Hsn & Hn1 & Hvec & HV).
    destruct (v_flatten_shape _ _ _ Hfl) as (WL & WR & WO & WV & WVC).
    unfold vt, run_tuple. cbn [vt_scalars vt_points]. repeat (rewrite app_length || rewrite map_length). cbn [length].
    set (op := op_degree_of (length (v_vec t))).
    assert (Hop2 : (2 <= op)%nat) by (unfold op; rewrite op_degree_even; lia).
    rewrite !firstn_length, skipn_length, op_splits_length, Hvec, WV, Lus, HR by exact Hop2.
    pose proof (op_degree_ge (length (v_vec t))) as Hge. fold op in Hge. lia.
  Qed.

  (** *** errors returned before the final check *)
  Lemma validate_Ts_err op (T : list V) : forall ds tr e, validate_Ts E op ds T tr = Some (Err e) -> e = VerificationError.
  Proof.
    induction ds as [|d ds IH]; intros tr e H; cbn [validate_Ts] in H; [discriminate|].
    destruct (Nat.eqb d op); [eapply IH; exact H|]. destruct (nth_error T_LABELS d); cbn [opt_bind] in H; [|discriminate].
    destruct (nth_error T d); cbn [opt_bind] in H; [|discriminate]. unfold validate_and_append_point in H.
    destruct (veqb v v0); [congruence|]. eapply IH; exact H.
  Qed.
  Lemma ipp_challenges_err (Ls : list V) : forall Rs tr e, ipp_challenges E tr Ls Rs = Some (Err e) -> e = VerificationError.
  Proof.
    induction Ls as [|L Ls IH]; intros [|R Rs] tr e H; cbn [ipp_challenges] in H; try discriminate.
    unfold validate_and_append_point in H. destruct (veqb L v0); [congruence|]. destruct (veqb R v0); [congruence|].
    destruct (challenge_scalar E _ "u") as [[c tr']|]; cbn [opt_bind] in H; [|discriminate].
    destruct (ipp_challenges E tr' Ls Rs) as [[[? ?]|e']|] eqn:Er; cbn [opt_bind] in H; try discriminate.
    assert (e' = e) by congruence. subst. eapply IH; exact Er.
  Qed.
  Lemma verification_scalars_err p n tr e : ipp_verification_scalars E p n tr = Some (Err e) -> e = VerificationError.
  Proof.
    unfold ipp_verification_scalars. destruct (32 <=? length (ipp_L p))%nat; [congruence|]. destruct (negb _); [congruence|].
    destruct (ipp_challenges E _ _ _) as [[[us tr']|e']|] eqn:Ei; cbn [opt_bind]; [|intros H|discriminate].
    - unfold guard. destruct (_ <=? _)%nat; discriminate.
    - assert (e' = e) by congruence. subst. eapply ipp_challenges_err; exact Ei.
  Qed.
  Lemma v_scalars_err dbg rr pf t e : v_def t = [] -> v_scalars_and_points E dbg rr pf t = Some (Err e) -> e = VerificationError.
  Proof.
    intros Hd. unfold v_scalars_and_points. destruct (negb dbg || (_ =? length (pT pf))%nat); cbn [guard]; [|discriminate].
    unfold validate at 1, validate_and_append_point at 1. destruct (veqb (A_I1 pf) v0); cbn [res_bind]; [congruence|].
    unfold validate at 1, validate_and_append_point at 1. destruct (veqb (A_O1 pf) v0); cbn [res_bind]; [congruence|].
    unfold validate at 1, validate_and_append_point at 1. destruct (veqb (S1 pf) v0); cbn [res_bind]; [congruence|].
    match goal with |- context [v_create_randomized E (v_set_tr (v_set_tr ?t0 ?a) ?b)] => change (v_set_tr (v_set_tr t0 a) b) with (v_set_tr t0 b);
      destruct (one_phase_v E t b Hd) as (t2 & -> & _) end. cbn [res_bind].
    destruct (challenge_scalar E _ "y") as [[y try_]|]; cbn [opt_bind]; [|discriminate].
    destruct (challenge_scalar E _ "z") as [[z trz]|]; cbn [opt_bind]; [|discriminate].
    destruct (validate_Ts E _ _ _ _) as [[trT|e']|] eqn:HVT; cbn [res_bind]; [|intros H; assert (e' = e) by congruence; subst; eapply validate_Ts_err; exact HVT|discriminate].
    destruct (challenge_scalar E _ "u") as [[u tru]|]; cbn [opt_bind]; [|discriminate].
    destruct (challenge_scalar E _ "x") as [[x trx]|]; cbn [opt_bind]; [|discriminate].
    destruct (challenge_scalar E _ "w") as [[w trw]|]; cbn [opt_bind]; [|discriminate].
    destruct (v_flatten t2 z) as [fl|] eqn:Hfl; cbn [opt_bind]; [|discriminate].
    destruct (ipp_verification_scalars E _ _ _) as [[[[[a1 a2] a3] tri]|e']|] eqn:Hvsc; cbn [res_bind]; [|intros H; assert (e' = e) by congruence; subst; eapply verification_scalars_err; exact Hvsc|discriminate].
    destruct (finv_opt y) as [yi|]; cbn [opt_bind]; [|discriminate].
    destruct (inner_product _ _) as [delta|]; cbn [opt_bind]; [|discriminate].
    destruct (opt_all _) as [xl|]; cbn [opt_bind]; [|discriminate].
    destruct (opt_all _) as [xr|]; cbn [opt_bind]; [|discriminate].
    destruct (Nat.leb _ _ && Nat.leb _ _); cbn [guard]; [|discriminate].
    destruct (negb dbg || _ && _ && (_ || _)); cbn [guard]; discriminate.
  Qed.

  Lemma vf_size dbg pf t t2 y z u x w fl us : v_def t = [] -> v_facts E dbg pf t t2 y z u x w fl us -> v_size t2 = v_size t.
  Proof.
    intros Hd [_ _ Hr _ _ _]. match type of Hr with v_create_randomized E (v_set_tr _ ?tr) = _ => destruct (one_phase_v E t tr Hd) as (t2' & H1 & H2 & _) end.
    assert (t2 = t2') by congruence. subst. exact H2.
  Qed.

  (** capacity *)
  Lemma verify_reached dbg rr pf t vt : gens_wf g -> v_def t = [] -> v_scalars_and_points E dbg rr pf t = Some (Ok vt) ->
    length (vt_fixed vt) = (2 + 2 * next_power_of_two (v_size t))%nat /\
    r1cs_verify E dbg rr pf pc g t =
      if (gens_capacity g <? next_power_of_two (v_size t))%nat then Some (Err InvalidGeneratorsLength)
      else mega_check pc g (next_power_of_two (v_size t)) (vt_points vt) (vt_scalars vt) (vt_fixed vt).
  Proof.
    intros _ Hd Hv. destruct (v_facts_of_scalars _ _ _ _ _ _ Hv) as (t2 & y & z & u & x & w & fl & us & Hf).
    pose proof (v_scalars_of_facts E dbg rr pf t t2 y z u x w fl us Hf) as Hv'. rewrite Hv in Hv'. apply Some_inj in Hv'.
    assert (vt = run_tuple rr pf t2 (v_size t) (v_size t2) (op_degree_of (length (v_vec t))) y u x w fl us) by congruence.
    assert (Hl : length (vt_fixed vt) = (2 + 2 * next_power_of_two (v_size t))%nat).
    { subst vt. rewrite (v_facts_fixed_length dbg rr pf t t2 y z u x w fl us Hf), (vf_size _ _ _ _ _ _ _ _ _ _ _ Hd Hf). reflexivity. }
    split; [exact Hl|]. unfold r1cs_verify. rewrite Hv. cbn [res_bind]. rewrite Hl.
    replace (2 + 2 * next_power_of_two (v_size t) - 2)%nat with (next_power_of_two (v_size t) * 2)%nat by lia. rewrite Nat.div_mul by lia.
    unfold mega_check. destruct (_ <? _)%nat; reflexivity.
  Qed.
  Lemma mega_check_err N pts scs fx e : (N <= gens_capacity g)%nat -> mega_check pc g N pts scs fx = Some (Err e) -> e = VerificationError.
  Proof.
    intros Hc. unfold mega_check. destruct (Nat.ltb_spec (gens_capacity g) N) as [|_]; [lia|].
    destruct (share_G g 0 N); cbn [opt_bind]; [|discriminate]. destruct (share_H g 0 N); cbn [opt_bind]; [|discriminate].
    destruct (veqb _ v0); congruence.
  Qed.
  Lemma verify_capacity dbg rr pf t : gens_wf g -> v_def t = [] ->
    (r1cs_verify E dbg rr pf pc g t = Some (Err InvalidGeneratorsLength) <->
     (gens_capacity g < next_power_of_two (v_size t))%nat /\ exists vt, v_scalars_and_points E dbg rr pf t = Some (Ok vt)) /\
    ((gens_capacity g < next_power_of_two (v_size t))%nat -> r1cs_verify E dbg rr pf pc g t <> Some (Ok tt)).
  Proof.
    intros Hw Hd. destruct (v_scalars_and_points E dbg rr pf t) as [[vt|e]|] eqn:Ev.
    - destruct (verify_reached _ _ _ _ _ Hw Hd Ev) as (_ & ->). split; [split|].
      + destruct (Nat.ltb_spec (gens_capacity g) (next_power_of_two (v_size t))) as [Hc|Hc]; [intros _; eauto|].
        intros H. apply mega_check_err in H; [discriminate|exact Hc].
      + intros (Hc & _). apply Nat.ltb_lt in Hc. rewrite Hc. reflexivity.
      + intros Hc. apply Nat.ltb_lt in Hc. rewrite Hc. discriminate.
    - pose proof (v_scalars_err _ _ _ _ _ Hd Ev) as ->. unfold r1cs_verify. rewrite Ev. cbn [res_bind]. split; [split|].
      + discriminate.
      + intros (_ & vt & H). discriminate.
      + discriminate.
    - unfold r1cs_verify. rewrite Ev. cbn [res_bind]. split; [split|]; try discriminate. intros (_ & vt & H). discriminate.
  Qed.

  (** ** no panic on well-shaped proofs (release build) *)
  Lemma ipp_challenges_drawn (Hch : good_challenges E) (Ls : list V) : forall Rs tr, (length Ls <= length Rs)%nat ->
    (exists us tr', ipp_challenges E tr Ls Rs = Some (Ok (us, tr')) /\ length us = length Ls) \/ ipp_challenges E tr Ls Rs = Some (Err VerificationError).
  Proof.
    induction Ls as [|L Ls IH]; intros [|R Rs] tr H; cbn [ipp_challenges] in *; try (left; eexists _, _; split; reflexivity).
    { cbn in H. lia. }
    unfold validate_and_append_point. destruct (veqb L v0); [right; reflexivity|]. destruct (veqb R v0); [right; reflexivity|].
    destruct (Hch (append_point E (append_point E tr "L" L) "R" R) "u"%string) as (c & tr1 & -> & _). cbn [opt_bind].
    destruct (IH Rs tr1 ltac:(cbn in H; lia)) as [(us & tr' & -> & Hl)| ->]; cbn [opt_bind]; [left|right; reflexivity].
    exists (c :: us), tr'. split; [reflexivity|cbn; lia].
  Qed.
  Lemma validate_Ts_drawn op (T : list V) : forall ds tr, (forall d, In d ds -> (d < 41)%nat) -> (forall d, In d ds -> (d < length T)%nat) ->
    (exists tr', validate_Ts E op ds T tr = Some (Ok tr')) \/ validate_Ts E op ds T tr = Some (Err VerificationError).
  Proof.
    induction ds as [|d ds IH]; intros tr H41 HT; cbn [validate_Ts]; [eauto|].
    destruct (Nat.eqb d op); [apply IH; intros; [apply H41|apply HT]; right; assumption|].
    destruct (nth_error T_LABELS d) as [lb|] eqn:El.
    2:{ exfalso. apply nth_error_None in El. cbn in El. specialize (H41 d (or_introl eq_refl)). lia. }
    cbn [opt_bind]. destruct (nth_error T d) as [P|] eqn:ET.
    2:{ exfalso. apply nth_error_None in ET. specialize (HT d (or_introl eq_refl)). lia. }
    cbn [opt_bind]. unfold validate_and_append_point. destruct (veqb P v0); [auto|]. apply IH; intros; [apply H41|apply HT]; right; assumption.
  Qed.

  Lemma verify_no_panic rr pf t :
    gens_wf g -> good_challenges E -> v_def t = [] -> (length (v_vec t) <= 17)%nat ->
    Forall (Forall (fun x => var_in_range (v_size t) (length (v_V t)) (map snd (v_vec t)) (fst x))) (v_cs t) ->
    (2 * (op_degree_of (length (v_vec t)) + 1) + 1 <= length (pT pf))%nat ->
    (length (ipp_L (pipp pf)) <= length (ipp_R (pipp pf)))%nat ->
    exists r, r1cs_verify E false rr pf pc g t = Some r.
  Proof.
    intros Hw Hch Hd H17 Hrange HT HR.
    assert (Hs : (exists vt, v_scalars_and_points E false rr pf t = Some (Ok vt)) \/ (exists e, v_scalars_and_points E false rr pf t = Some (Err e))).
    { destruct (v_pad_facts t) as (P1 & P2 & P3 & P4 & P5 & P6 & P7). cbv zeta in *.
      destruct (veqb (A_I1 pf) v0) eqn:Z1.
      { right. eexists. unfold v_scalars_and_points, validate, validate_and_append_point. cbn [negb orb guard]. rewrite Z1. reflexivity. }
      destruct (veqb (A_O1 pf) v0) eqn:Z2.
      { right. eexists. unfold v_scalars_and_points, validate, validate_and_append_point. cbn [negb orb guard]. rewrite Z1. cbn [res_bind]. rewrite Z2. reflexivity. }
      destruct (veqb (S1 pf) v0) eqn:Z3.
      { right. eexists. unfold v_scalars_and_points, validate, validate_and_append_point. cbn [negb orb guard]. rewrite Z1. cbn [res_bind]. rewrite Z2. cbn [res_bind]. rewrite Z3. reflexivity. }
      destruct (one_phase_v E t (append_point E (append_point E (append_point E
               (append_u64 (v_tr t) "m" (N.of_nat (length (v_V t)))) "A_I1" (A_I1 pf)) "A_O1" (A_O1 pf)) "S1" (S1 pf)) Hd) as (t2 & Hr2 & Hs2 & Hn2 & Hcs2 & Hvec2 & HV2).
      destruct (Hch (append_point E (append_point E (append_point E (v_tr t2) "A_I2" (A_I2 pf)) "A_O2" (A_O2 pf)) "S2" (S2 pf)) "y"%string) as (y & try_ & Ry & Hy0).
      destruct (Hch try_ "z"%string) as (z & trz & Rz & _).
      set (op := op_degree_of (length (v_vec t))) in *.
      assert (Hpre : forall k : option (Res (VTuple V)), (exists vt, k = Some (Ok vt)) \/ (exists e, k = Some (Err e)) -> (exists vt, k = Some (Ok vt)) \/ (exists e, k = Some (Err e))) by auto.
      destruct (validate_Ts_drawn op (pT pf) (seq 0 (2 * (op + 1) + 1)) trz) as [(trT & HVT)|HVT].
      { intros d Hdd. apply in_seq in Hdd. apply op_le_17 in H17. fold op in H17. lia. }
      { intros d Hdd. apply in_seq in Hdd. lia. }
      2:{ right. exists VerificationError. unfold v_scalars_and_points, validate, validate_and_append_point. cbn [negb orb guard]. rewrite Z1. cbn [res_bind]. rewrite Z2. cbn [res_bind]. rewrite Z3. cbn [res_bind].
          set (t0 := v_pad (v_size t) t) in *. change (v_set_tr (v_set_tr t0 ?a) ?b) with (v_set_tr t0 b). change (v_tr (v_set_tr t0 ?a)) with a.
          change (v_vec (v_set_tr t0 ?a)) with (v_vec t0). rewrite P2, P3, P4, Hr2. cbn [res_bind]. rewrite Ry. cbn [opt_bind]. rewrite Rz. cbn [opt_bind]. fold op. rewrite HVT. reflexivity. }
      destruct (Hch trT "u"%string) as (u & tru & Ru & _). destruct (Hch tru "x"%string) as (x & trx & Rx & _).
      destruct (Hch (append_scalar E (append_scalar E (append_scalar E trx "t_x" (pt_x pf)) "t_x_blinding" (pt_x_blinding pf)) "e_blinding" (pe_blinding pf)) "w"%string) as (w & trw & Rw & _).
      destruct (proj1 (v_flatten_total t2 z)) as (fl & Hfl).
      { unfold v_in_range. rewrite Hcs2, Hn2, HV2, Hvec2. exact Hrange. }
      assert (Hsc : (exists us tri, ipp_verification_scalars E (pipp pf) (next_power_of_two (v_size t2)) trw
           = Some (Ok (map (fun u : F => u * u) us, map (fun u : F => inv_or_zero u * inv_or_zero u) us, svec us, tri))) \/
         ipp_verification_scalars E (pipp pf) (next_power_of_two (v_size t2)) trw = Some (Err VerificationError)).
      { destruct (32 <=? length (ipp_L (pipp pf)))%nat eqn:E32; [right; unfold ipp_verification_scalars; rewrite E32; reflexivity|].
        destruct (negb (Nat.eqb (next_power_of_two (v_size t2)) (2 ^ length (ipp_L (pipp pf))))) eqn:E2n; [right; unfold ipp_verification_scalars; rewrite E32, E2n; reflexivity|].
        destruct (ipp_challenges_drawn Hch (ipp_L (pipp pf)) (ipp_R (pipp pf)) (innerproduct_domain_sep trw (N.of_nat (next_power_of_two (v_size t2)))) HR) as [(us & tri & Hus & Lus)|Hus].
        - left. exists us, tri. apply verification_scalars_spec. exists us, tri. apply Nat.leb_gt in E32. apply negb_false_iff, Nat.eqb_eq in E2n.
          repeat (split; [assumption|]). reflexivity.
        - right. unfold ipp_verification_scalars. rewrite E32, E2n, Hus. reflexivity. }
      destruct Hsc as [(us & tri & Hsc)|Hsc].
      - left. eexists. apply (v_scalars_of_facts E false rr pf t t2 y z u x w fl us). constructor.
        + discriminate.
        + split; [|split]; intros Hz; rewrite Hz, (proj2 (veqb_true v0 v0) eq_refl) in *; discriminate.
        + exact Hr2.
        + exists try_, trz, trT, tru, trx, trw, tri. fold op. repeat (split; [assumption|]). exact Hsc.
        + exact Hfl.
        + exact Hy0.
      - right. exists VerificationError. unfold v_scalars_and_points, validate, validate_and_append_point. cbn [negb orb guard]. rewrite Z1. cbn [res_bind]. rewrite Z2. cbn [res_bind]. rewrite Z3. cbn [res_bind].
        set (t0 := v_pad (v_size t) t) in *. change (v_set_tr (v_set_tr t0 ?a) ?b) with (v_set_tr t0 b). change (v_tr (v_set_tr t0 ?a)) with a.
        change (v_vec (v_set_tr t0 ?a)) with (v_vec t0). rewrite P2, P3, P4, Hr2. cbn [res_bind]. rewrite Ry. cbn [opt_bind]. rewrite Rz. cbn [opt_bind]. fold op. rewrite HVT. cbn [res_bind].
        rewrite Ru. cbn [opt_bind]. rewrite Rx. cbn [opt_bind]. rewrite Rw. cbn [opt_bind]. rewrite Hfl. cbn [opt_bind]. rewrite Hsc. reflexivity. }
    destruct Hs as [(vt & Hs)|(e & Hs)].
    - destruct (verify_reached _ _ _ _ _ Hw Hd Hs) as (_ & ->). destruct (_ <? _)%nat eqn:Ec; [eauto|]. unfold mega_check. rewrite Ec.
      destruct Hw as (Gr & Hr & HG & HH & _). unfold share_G, share_H. rewrite HG, HH. cbn [option_map opt_bind]. destruct (veqb _ v0); eauto.
    - unfold r1cs_verify. rewrite Hs. cbn [res_bind]. eauto.
  Qed.

  (** ** panics *)
  Lemma validate_Ts_short op (T : list V) : Forall (fun P => P <> v0) T -> forall ds tr, (exists d, In d ds /\ d <> op /\ (length T <= d)%nat) ->
    validate_Ts E op ds T tr = None.
  Proof.
    intros HT. induction ds as [|d ds IH]; intros tr (d' & Hin & Hne & Hl); [destruct Hin|]. cbn [validate_Ts].
    destruct (Nat.eqb_spec d op) as [->|Hd].
    - destruct Hin as [->|Hin]; [contradiction|]. apply IH. eauto.
    - destruct (nth_error T_LABELS d); cbn [opt_bind]; [|reflexivity]. destruct (nth_error T d) as [P|] eqn:ET; cbn [opt_bind]; [|reflexivity].
      assert (HP : P <> v0) by (apply nth_error_In in ET; rewrite Forall_forall in HT; auto).
      unfold validate_and_append_point. destruct (veqb_spec _ _ P v0); [contradiction|]. apply IH. exists d'. destruct Hin as [->|Hin]; [|auto].
      apply nth_error_None in Hl. congruence.
  Qed.
  Lemma verify_short_T dbg rr pf t : v_def t = [] -> good_challenges E ->
    Forall (fun P => P <> v0) ([A_I1 pf; A_O1 pf; S1 pf] ++ pT pf) ->
    (length (pT pf) < 2 * (op_degree_of (length (v_vec t)) + 1) + 1)%nat ->
    r1cs_verify E dbg rr pf pc g t = None.
  Proof.
    intros Hd Hch Hnz HT. unfold r1cs_verify.
    destruct (v_scalars_and_points E dbg rr pf t) as [[vt|e]|] eqn:Ev; [| |reflexivity].
    - exfalso. apply v_facts_of_scalars in Ev as (t2 & y & z & u & x & w & fl & us & Hf).
      destruct (vf_chal _ _ _ _ _ _ _ _ _ _ _ _ Hf) as (try_ & trz & trT & tru & trx & trw & tri & _ & _ & HVT & _).
      rewrite validate_Ts_short in HVT; [discriminate| |].
      + apply Forall_app in Hnz as [_ Hnz]. exact Hnz.
      + exists (2 * (op_degree_of (length (v_vec t)) + 1))%nat. split; [apply in_seq; lia|]. lia.
    - exfalso. apply Forall_app in Hnz as [Hnz3 HnzT]. apply Forall_cons_iff in Hnz3 as [Z1 Hnz3]. apply Forall_cons_iff in Hnz3 as [Z2 Hnz3]. apply Forall_cons_iff in Hnz3 as [Z3 _].
      revert Ev. unfold v_scalars_and_points. destruct (v_pad_facts t) as (P1 & P2 & P3 & P4 & P5 & P6 & P7). cbv zeta in *.
      set (t0 := v_pad (v_size t) t) in *. change (v_vec (v_set_tr t0 _)) with (v_vec t0). rewrite P2.
      destruct (negb dbg || (_ =? length (pT pf))%nat); cbn [guard]; [|discriminate].
      rewrite validate_ok by assumption. cbn [res_bind]. rewrite validate_ok by assumption. cbn [res_bind]. rewrite validate_ok by assumption. cbn [res_bind].
      change (v_set_tr (v_set_tr t0 ?a) ?b) with (v_set_tr t0 b).
      match goal with |- context [v_create_randomized E (v_set_tr t0 ?b)] => destruct (one_phase_v E t b Hd) as (t2 & Hr2 & _) end. fold t0 in Hr2. rewrite Hr2. cbn [res_bind].
      destruct (challenge_scalar E _ "y") as [[y try_]|]; cbn [opt_bind]; [|discriminate].
      destruct (challenge_scalar E _ "z") as [[z trz]|]; cbn [opt_bind]; [|discriminate].
      rewrite validate_Ts_short; [discriminate|exact HnzT|].
      exists (2 * (op_degree_of (length (v_vec t)) + 1))%nat. split; [apply in_seq; lia|]. lia.
  Qed.

  (** ** malleability *)
  Lemma validate_Ts_ext op (T T' : list V) : forall ds tr, (forall d, In d ds -> d <> op -> nth_error T d = nth_error T' d) ->
    validate_Ts E op ds T tr = validate_Ts E op ds T' tr.
  Proof.
    induction ds as [|d ds IH]; intros tr H; [reflexivity|]. cbn [validate_Ts]. destruct (Nat.eqb_spec d op) as [|Hd].
    - apply IH. intros; apply H; [right|]; assumption.
    - rewrite (H d (or_introl eq_refl) Hd). destruct (nth_error T_LABELS d); cbn [opt_bind]; [|reflexivity].
      destruct (nth_error T' d); cbn [opt_bind]; [|reflexivity]. destruct (validate_and_append_point E tr s v); [|reflexivity].
      apply IH. intros; apply H; [right|]; assumption.
  Qed.
  (* vocabulary of specifications and proofs, no code modelled *)
  Definition with_T (pf : R1CSProof V) (T : list V) : R1CSProof V :=
    mkProof (A_I1 pf) (A_O1 pf) (S1 pf) (A_I2 pf) (A_O2 pf) (S2 pf) T (pt_x pf) (pt_x_blinding pf) (pe_blinding pf) (pipp pf).
  Lemma v_scalars_T_ext rr pf T' t :
    (forall d, (d <= 2 * (op_degree_of (length (v_vec t)) + 1))%nat -> d <> op_degree_of (length (v_vec t)) -> nth_error (pT pf) d = nth_error T' d) ->
    v_scalars_and_points E false rr pf t = v_scalars_and_points E false rr (with_T pf T') t.
  Proof.
    intros H. destruct (v_pad_facts t) as (P1 & P2 & P3 & P4 & P5 & P6 & P7). cbv zeta in *.
    unfold v_scalars_and_points. cbn [negb orb guard with_T A_I1 A_O1 S1 A_I2 A_O2 S2 pT pt_x pt_x_blinding pe_blinding pipp].
    change (v_vec (v_set_tr ?a ?b)) with (v_vec a). rewrite P2. set (op := op_degree_of (length (v_vec t))) in *.
    destruct (validate E _ "A_I1" _) as [[?|?]|]; cbn [res_bind]; try reflexivity.
    destruct (validate E _ "A_O1" _) as [[?|?]|]; cbn [res_bind]; try reflexivity.
    destruct (validate E _ "S1" _) as [[?|?]|]; cbn [res_bind]; try reflexivity.
    destruct (v_create_randomized E _) as [[t2|?]|]; cbn [res_bind]; try reflexivity.
    destruct (challenge_scalar E _ "y") as [[y try_]|]; cbn [opt_bind]; [|reflexivity].
    destruct (challenge_scalar E _ "z") as [[z trz]|]; cbn [opt_bind]; [|reflexivity].
    rewrite (validate_Ts_ext op (pT pf) T' (seq 0 (2 * (op + 1) + 1)) trz) by (intros d Hd; apply in_seq in Hd; apply H; lia).
    rewrite (map_ext_in (fun d => nth d (pT pf) v0) (fun d => nth d T' v0)); [reflexivity|].
    intros d Hd. apply filter_In in Hd as [Hd Hne]. apply in_seq in Hd. apply negb_true_iff, Nat.eqb_neq in Hne.
    specialize (H d ltac:(lia) Hne). rewrite <- !(nth_default_eq d). unfold nth_default. rewrite H. reflexivity.
  Qed.
End Misc.
