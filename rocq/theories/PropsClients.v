(** * C77, C78: a range proof and an example circuit from end to end *)
From Verif Require Import Clients ShuffleProofs CSProofs CSLogic CSMore UtilProofs GadgetProofs R1CSSpec R1CSProofs R1CSMain R1CSVerif R1CSMore R1CSTotal FlatProofs Lockstep SelSim CircuitSize SoundSpec SoundLift SoundCount Curve Late PropsGadgets PropsR1CS PropsSound PropsConserve PropsShuffle Toy ToyCurve.
Local Open Scope F_scope.

Section RangeClient.
  Context {F : Field} {V : VSpace F} (E : TrEnv V) (pc : PedersenGens V) (g : BPGens V).
  Let tr0 := test_transcript "RangeProofTest".
  (** The prover of [range_prove] after the commitment: bulletproofs/tests/r1cs.rs 474-479. *)
  Definition range_start (v : N) (blinding : F) : PState F := fst (p_commit E pc (p_new tr0) (fN v) blinding).
  Lemma range_start_honest v b : honest (range_start v b) /\ issued (range_start v b) (Committed 0) /\ p_asg (range_start v b) (Committed 0) = fN v /\ p_def (range_start v b) = [].
  Proof.
    split; [split; [apply (p_commit_inv E pc), p_new_inv|constructor]|]. split; [split; [discriminate|intros i Hi; discriminate Hi]|]. split; reflexivity.
  Qed.
  Lemma range_prove_eq dbg rnd v b n : range_prove E dbg rnd pc g v b n =
    match prun E (range_proof dbg (lc_var (Committed 0)) (Some v) n) (range_start v b) with Some (s, Ok _) => dor r <- r1cs_prove E dbg rnd pc g s; Some (Ok (fst r, pc_commit pc (fN v) b)) | _ => None end.
  Proof. reflexivity. Qed.
  Lemma range_verifier dbg n : forall i e v (t : VState V), exists t', vrun E (range_loop dbg None n i e v) t = Some (t', Ok tt) /\ (forall dbg', vrun E (range_loop dbg' None n i e v) t = Some (t', Ok tt)) /\
    v_num t' = (v_num t + n)%nat /\ v_vec t' = v_vec t /\ v_V t' = v_V t /\ v_def t' = v_def t /\ length (v_cs t') = (length (v_cs t) + (2 * n + 1))%nat.
  Proof.
    induction n as [|n IH]; intros i e v t; cbn [range_loop vrun].
    - eexists. split; [reflexivity|]. split; [reflexivity|]. cbn [v_constrain v_num v_vec v_V v_def v_cs]. rewrite app_length. cbn [length]. repeat split; lia.
    - cbn [v_allocate_multiplier vrun range_loop]. match goal with |- context [vrun E (range_loop dbg None n ?i ?e ?v) ?t1] => destruct (IH i e v t1) as (t' & R & Rd & H1 & H2 & H3 & H4 & H5) end.
      exists t'. split; [exact R|]. split; [intros dbg'; exact (Rd dbg')|]. cbn [v_constrain v_set_num v_num v_vec v_V v_def v_cs] in *. rewrite !app_length in H5. cbn [length] in H5. repeat split; try assumption; lia.
  Qed.
  Lemma range_statement_shape dbg com n : exists t, (forall dbg', range_statement E dbg' com n = Some t) /\ vrun E (range_proof dbg (lc_var (Committed 0)) None n) (fst (v_commit E (v_new tr0) com)) = Some (t, Ok tt) /\
    v_size t = n /\ v_vec t = [] /\ v_V t = [com] /\ v_def t = [] /\ length (v_cs t) = (2 * n + 1)%nat.
  Proof.
    destruct (range_verifier dbg n 0 1 (lc_var (Committed 0)) (fst (v_commit E (v_new tr0) com))) as (t & R & Rd & H1 & H2 & H3 & H4 & H5). exists t. split.
    { intros dbg'. unfold range_statement. cbn [v_commit]. unfold range_proof. cbn [v_new v_V length]. specialize (Rd dbg'). cbn [v_commit fst v_new v_V length] in Rd. unfold tr0 in Rd. rewrite Rd. reflexivity. }
    split; [exact R|]. cbn [v_commit fst v_new v_num v_vec v_V v_def v_cs app length] in *. unfold v_size. rewrite H1, H2. repeat split; assumption.
  Qed.
  Lemma range_session dbg v b n s : prun E (range_proof dbg (lc_var (Committed 0)) (Some v) n) (range_start v b) = Some (s, Ok tt) ->
    exists t, (forall dbg', range_statement E dbg' (pc_commit pc (fN v) b) n = Some t) /\ session E pc g tr0 s t /\ v_size t = n /\ v_vec t = [] /\ p_def s = [] /\ length (p_cs s) = (2 * n + 1)%nat.
  Proof.
    intros Hp.
    assert (S0 : session E pc g tr0 (range_start v b) (fst (v_commit E (v_new tr0) (pc_commit pc (fN v) b)))).
    { eapply (ses_commit E pc g _ _ _ (fN v) b); [apply ses_new|reflexivity]. }
    destruct (range_statement_shape dbg (pc_commit pc (fN v) b) n) as (t & Hst & R & Hsz & Hvec & _ & _ & Hcs).
    assert (S1 : session E pc g tr0 s t). { eapply ses_gadget; [exact S0| |exact Hp|exact R]. apply simg_same, range_loop_same. }
    exists t. split; [exact Hst|]. split; [exact S1|]. split; [exact Hsz|]. split; [exact Hvec|]. split.
    - rewrite (simg_def E _ _ _ (range_loop_same dbg v n 0 1 _) _ _ _ Hp). reflexivity.
    - destruct (session_agree E pc g tr0 s t S1) as [_ Ha]. rewrite (ag_cs _ _ _ _ Ha). exact Hcs.
  Qed.
End RangeClient.

(** ** C77: range proofs *)

(** For a value of [n] bits the prover returns a proof, and the verifier accepts it for the
    commitment to the value.  Only proofs with a point at infinity are refused. *)
Theorem C77_range_complete : forall (F : Field) (V : VSpace F) (E : TrEnv V) pc g dbg rnd v blinding n,
  gens_wf g -> (gens_capacity g < 2 ^ 32)%nat -> (forall tr lb, exists c tr', challenge_scalar E tr lb = Some (c, tr') /\ c <> 0) ->
  (n <= 64)%nat -> (v < 2 ^ N.of_nat n)%N -> (next_power_of_two n <= gens_capacity g)%nat ->
  exists pf, range_prove E dbg rnd pc g v blinding n = Some (Ok (pf, pc_commit pc (fN v) blinding)) /\
    (Forall (fun P => P <> v0) (validated_points (op_degree_of 0) pf) ->
     forall dbg' rr, range_verify E dbg' rr pf pc g (pc_commit pc (fN v) blinding) n = Some (Ok tt)).
Proof.
  intros F V E pc g dbg rnd v b n Hw Hc Hch Hn Hv Hcap. destruct (range_start_honest E pc v b) as (Hh & Hi & Hval & Hd).
  destruct (range_total E dbg (lc_var (Committed 0)) v n _ Hh (lc_ok_var _ _ Hi) Hn Hv) as (s & R & Hh' & _); [rewrite lc_val_var; exact Hval|].
  destruct (range_session E pc g dbg v b n s R) as (t & Hst & Hs & Hsz & Hvec & Hd' & _).
  destruct (capacity_exact E pc g dbg rnd _ s t n Hs Hh' Hd' Hw Hch) as [Hok _]; [unfold dims; rewrite Hvec; cbn; lia|exact Hsz|].
  destruct (Hok Hcap) as (pf & trf & Hp). exists pf. split.
  - rewrite range_prove_eq, R, Hp. reflexivity.
  - intros Hnz dbg' rr. unfold range_verify. rewrite Hst. cbn [opt_bind]. eapply C08_complete; try eassumption; [apply honest_satisfies, Hh'|].
    destruct (session_size E pc g _ s t Hs) as [_ El]. unfold dims in El. rewrite Hvec in El. cbn in El. rewrite El. exact Hnz.
Qed.

(** The prover of the repository with a value that is too large: the proof is refused,
    unless [x] is zero, the verifier draws zero or [z] is one of [2 n + 1] values that the
    statement and the blinding determine. *)
Theorem C77_range_rejects : forall (F : PField) (V : VSpace F) (E : TrEnv V) pc g dbg v blinding n,
  gens_wf g -> (gens_capacity g < 2 ^ 32)%nat -> pcB pc <> v0 -> (n <= 64)%nat -> (2 ^ N.of_nat n <= v < pf_mod F)%N ->
  exists t Unlucky, (forall dbg', range_statement E dbg' (pc_commit pc (fN v) blinding) n = Some t) /\ at_most (2 * n + 1) Unlucky /\
  forall rnd pf com, range_prove E dbg rnd pc g v blinding n = Some (Ok (pf, com)) -> Forall (fun P => P <> v0) (validated_points (op_degree_of 0) pf) ->
    com = pc_commit pc (fN v) blinding /\ exists t2 y z x, r1cs_challenges E pf t = Some (t2, y, z, x) /\
    (~ Unlucky z -> x <> 0 -> forall dbg' rr, rr <> 0 -> range_verify E dbg' rr pf pc g com n = Some (Err VerificationError)).
Proof.
  intros F V E pc g dbg v b n Hw Hc HB Hn [Hv Hmod]. destruct (range_start_honest E pc v b) as (Hh & Hi & Hval & Hd).
  destruct (prun E (range_proof dbg (lc_var (Committed 0)) (Some v) n) (range_start E pc v b)) as [[s [[]|e]]|] eqn:R.
  2, 3: destruct (range_statement_shape E false (pc_commit pc (fN v) b) n) as (t0 & Hst0 & _); exists t0, (fun _ => False); split; [exact Hst0|]; split; [intros [|a l] _ Hf; [cbn; lia|apply Forall_inv in Hf; contradiction]|];
    intros rnd pf com Hp; rewrite range_prove_eq, R in Hp; discriminate Hp.
  destruct (range_session E pc g dbg v b n s R) as (t & Hst & Hs & Hsz & Hvec & Hd' & Hcs).
  pose proof (C28_range_exact F V E dbg (lc_var (Committed 0)) v n _ s _ Hh (lc_ok_var _ _ Hi) Hn R) as Hbad.
  assert (Hex : Exists (fun lc => lc_val (p_asg s) lc <> 0) (p_cs s)).
  { destruct (Forall_Exists_dec (fun lc => lc_val (p_asg s) lc = 0) (fun lc => f_eq_dec _ 0) (p_cs s)) as [Hall|He]; [|exact He]. exfalso. destruct Hbad as [Hbad _].
    assert (Hlt : (v mod 2 ^ N.of_nat n < 2 ^ N.of_nat n)%N) by (apply N.mod_upper_bound, N.pow_nonzero; lia).
    assert (Hsat : satisfies (p_asg s) (p_cs s)); [|apply Hbad in Hsat; rewrite lc_val_var, Hval in Hsat; apply (f_equal pf_repr) in Hsat; rewrite !pf_repr_of, (N.mod_small v (pf_mod F)), (N.mod_small (v mod _) (pf_mod F)) in Hsat by lia; lia].
    split; [reflexivity|]. split; [|exact Hall]. destruct (session_agree E pc g _ s t Hs) as [Hg _]. exact (p_asg_gates _ Hg). }
  exists t, (fun z => z = 0 \/ batched_constraints (p_asg s) z (p_cs s) = 0). split; [exact Hst|]. split.
  { rewrite Nat.add_1_r. apply at_most_or_eq. intros l Hnd Hl. rewrite <- Nat.lt_succ_r, <- Nat.add_1_r, <- Hcs. eapply batching_z; [exact Hex|exact Hnd| |].
    - intros H0. rewrite Forall_forall in Hl. apply (Hl 0 H0). reflexivity.
    - eapply Forall_impl; [|exact Hl]. intros z [_ H]. exact H. }
  intros rnd pf com Hp Hnz. rewrite range_prove_eq, R in Hp.
  destruct (r1cs_prove E dbg rnd pc g s) as [[[pf' trf]|]|] eqn:Hpr; try discriminate Hp. cbn [res_bind fst] in Hp. injection Hp as -> <-. split; [reflexivity|].
  destruct (session_size E pc g _ s t Hs) as [_ El]. unfold dims in El. rewrite Hvec in El. cbn in El.
  destruct (C10_exact F V E pc g _ s t dbg rnd pf trf Hs Hd' Hw Hc HB Hpr) as (t2 & y & z & x & Hch & Hx); [rewrite El; exact Hnz|].
  exists t2, y, z, x. split; [exact Hch|]. intros Hu Hx0 dbg' rr Hr. unfold range_verify. rewrite Hst. cbn [opt_bind]. destruct (Hx dbg' rr) as [Hiff [Hok|Her]]; [|exact Her].
  exfalso. apply Hiff in Hok. destruct Hok as [H|[H|H]]; [contradiction|contradiction|]. apply Hu. right. exact H.
Qed.

(** For proofs of any prover that knows the coefficients of its points, in particular an
    opening of the commitment: it either knows a relation between the generators or the
    opened value has [n] bits.  (Missing, as in C66: provers without known coefficients, and
    the probability over the random oracle.) *)
Theorem C77_range_sound_partial : forall (F : PField) (V : VSpace F) (N : nat) n (com : FreeV F (2 + (N + N))) (t2 : VState (FreeV F (2 + (N + N)))) AI1 AO1 SS1 AI2 AO2 SS2,
  v_V t2 = [com] -> v_vec t2 = [] ->
  unless_unlucky N t2 (fun y z T u x tx txb eb w Ls Rs us a b rr =>
    let pf := mkProof AI1 AO1 SS1 AI2 AO2 SS2 T tx txb eb (mkIPP Ls Rs a b) in
    forall (E : TrEnv V) dbg pc g Gs Hs t vt,
      let phi := free_eval (generators pc Gs Hs) in
      gens_wf g -> share_G g 0 N = Some Gs -> share_H g 0 N = Some Hs -> length Rs = length Ls -> next_power_of_two (v_size t2) = N ->
      range_statement E dbg (phi com) n = Some t ->
      all_challenges E (map_proof phi pf) t = Some (map_vstate phi t2, (y, z, u, x, w), us) ->
      range_verify E dbg rr (map_proof phi pf) pc g (phi com) n = Some (Ok tt) ->
      v_scalars_and_points E dbg rr (map_proof phi pf) t = Some (Ok vt) ->
      let c := combined N (vt_scalars vt) (all_points t2 pf) (vt_fixed vt) in
      (c <> v0 /\ free_eval (generators pc Gs Hs) c = v0) \/
      (pf_repr (on_B N com) < 2 ^ N.of_nat n)%N).
Proof.
  intros F V N n com t2 AI1 AO1 SS1 AI2 AO2 SS2 HV Hvec.
  eapply unlucky_mono; [|apply (C66_sound_even_partial F V N t2 n AI1 AO1 SS1 AI2 AO2 SS2); rewrite Hvec; [reflexivity|intros cd i []]].
  cbv beta zeta. intros y z T u x tx txb eb w Ls Rs us a b rr Hg E dbg pc g Gs Hs t vt Hw HGs HHs HR HN Hst Hch Hver Hvt.
  destruct (range_statement_shape E dbg (free_eval (generators pc Gs Hs) com) n) as (t' & Hst' & R & Hsz & Hvec' & HV' & Hdef & _). rewrite (Hst' dbg) in Hst. apply Some_inj in Hst. subst t'.
  unfold range_verify in Hver. rewrite (Hst' dbg) in Hver. cbn [opt_bind] in Hver.
  destruct (challenges_state _ _ _ _ _ _ Hch) as [_ Hcs].
  destruct (Hg E dbg pc g t Gs Hs vt Hw HGs HHs Hsz HR HN Hch Hver Hvt) as [Hrel|Hsat].
  - left. exact Hrel.
  - right. pose proof (C27_range_sound_repr F V E dbg _ _ n _ t _ _ _ R Hcs Hsat) as H. rewrite lc_val_var in H. cbn [extracted] in H. rewrite HV in H. exact H.
Qed.
Print Assumptions C77_range_complete.
Print Assumptions C77_range_rejects.
Print Assumptions C77_range_sound_partial.

(** More than 64 bits: the prover shifts a u64 by its width, which panics when overflow is
    checked. *)
Theorem C77_wide_panics : forall (F : Field) (V : VSpace F) (E : TrEnv V) pc g rnd v blinding n, (64 < n)%nat -> range_prove E true rnd pc g v blinding n = None.
Proof.
  intros F V E pc g rnd v b n Hn. rewrite range_prove_eq. destruct (range_start_honest E pc v b) as (Hh & _). rewrite (C28_range_wide_panics F V E _ v n _ Hn Hh). reflexivity.
Qed.
Print Assumptions C77_wide_panics.

(** ** C78: the example circuit *)
Section ExampleClient.
  Context {F : Field} {V : VSpace F} (E : TrEnv V) (pc : PedersenGens V) (g : BPGens V).
  Add Field FFexc : (f_th F).
  Let tr0 := test_transcript "R1CSExampleGadget".
  (** The constraints of the circuit (no code modelled: the result of running it). *)
  Definition example_cs (c2 : N) : list (LC F) :=
    [lc_add (lc_var (Committed 0)) (lc_var (Committed 1)) ++ [(MulL 0, - (1))]; lc_add (lc_var (Committed 2)) (lc_var (Committed 3)) ++ [(MulR 0, - (1))];
     lc_sub (lc_add (lc_var (Committed 4)) (lc_const (fN c2))) (lc_var (MulO 0))].
  Lemma example_session (a1 a2 b1 b2 c1 : N) (d1 d2 d3 d4 d5 : F) :
    let values := [(a1, d1); (a2, d2); (b1, d3); (b2, d4); (c1, d5)] in
    let coms := map (fun '(v, b) => pc_commit pc (fN v) b) values in
    exists s t, p_def s = [] /\ p_vec s = [] /\ p_size s = 1%nat /\ p_cs s = example_cs 0 /\ forall c,
      session E pc g tr0 (p_restated s (example_cs c)) (v_restated t (example_cs c)) /\
      (forall z, batched_constraints (p_asg (p_restated s (example_cs c))) z (example_cs c) = z * (z * (z * (fN c1 + fN c - (fN a1 + fN a2) * (fN b1 + fN b2))))) /\
      Forall (Forall (fun x => p_var s (fst x) <> None)) (example_cs c) /\
      (forall dbg rnd, example_prove E dbg rnd pc g values c = dor r <- r1cs_prove E dbg rnd pc g (p_restated s (example_cs c)); Some (Ok (fst r, coms))) /\
      example_statement E coms c = Some (v_restated t (example_cs c)).
  Proof.
    intros values coms. set (l := map (fun '(v, b) => (fN (F := F) v, b)) values).
    destruct (session_commits E pc g tr0 l (p_new tr0) (v_new tr0) (ses_new _ _ _ _) eq_refl) as (s1 & t1 & P1 & V1 & S1 & L1).
    destruct (p_commits_spec E pc l (p_new tr0)) as [tr1 Hs1]. rewrite P1 in Hs1. injection Hs1 as Hs1.
    assert (Hc : map (fun p => pc_commit pc (fst p) (snd p)) l = coms) by reflexivity. rewrite Hc in V1, P1.
    destruct (v_commits_spec E coms (v_new tr0)) as [tr2 Ht1]. rewrite V1 in Ht1. injection Ht1 as Ht1.
    unfold l, values in Hs1. cbn [p_new p_cs p_aL p_aR p_aO p_v p_vb p_vec p_def p_pend map fst snd app] in Hs1. cbn [v_new v_cs v_vec v_num v_V v_def v_pend app] in Ht1.
    set (vars := map Committed (seq 0 5)).
    set (s := mkP tr1 (example_cs 0) [fN a1 + fN a2] [fN b1 + fN b2] [(fN a1 + fN a2) * (fN b1 + fN b2)] [fN a1; fN a2; fN b1; fN b2; fN c1] [d1; d2; d3; d4; d5] [] [] None).
    set (t := mkV tr2 (example_cs 0) [] 1 coms [] None).
    assert (Hp : forall c, prun E (example_circuit vars c) s1 = Some (p_restated s (example_cs c), tt)).
    { intros c. subst s1. cbn [vars map seq example_circuit example_gadget prun]. unfold p_multiply, p_eval. cbn [lc_add lc_var app fold_right p_var p_v nth_error opt_bind].
      assert (e1 : 1 * fN a1 + (1 * fN a2 + 0) = fN a1 + fN a2 :> F) by ring. assert (e2 : 1 * fN b1 + (1 * fN b2 + 0) = fN b1 + fN b2 :> F) by ring. rewrite e1, e2. reflexivity. }
    assert (Hv : forall c, vrun E (example_circuit vars c) t1 = Some (v_restated t (example_cs c), tt)) by (intros c; subst t1; reflexivity).
    exists s, t. split; [reflexivity|]. split; [reflexivity|]. split; [reflexivity|]. split; [reflexivity|]. intros c.
    split; [eapply ses_gadget; [exact S1| |exact (Hp c)|exact (Hv c)]; constructor; intros [[? ?] ?]; repeat constructor|].
    split.
    { intros z. rewrite batched_constraints_peval. unfold example_cs. cbn [map peval]. rewrite !lc_val_app, !lc_val_sub, !lc_val_add, !lc_val_var, lc_val_const by reflexivity. cbn. ring. }
    split; [cbn; repeat constructor; discriminate|]. split.
    - intros dbg rnd. unfold example_prove. fold tr0. fold l. rewrite P1. cbn [l values map length p_new p_v] in *. fold vars. rewrite (Hp c). reflexivity.
    - unfold example_statement. fold tr0. rewrite V1. cbn [coms values map length v_new v_V p_new p_v]. fold vars. subst vars. cbn [length l values map]. rewrite (Hv c). reflexivity.
  Qed.
  Lemma example_means (w : Var -> F) c2 : w One = 1 -> w (MulO 0) = w (MulL 0) * w (MulR 0) -> Forall (fun lc => lc_val w lc = 0) (example_cs c2) ->
    (w (Committed 0) + w (Committed 1)) * (w (Committed 2) + w (Committed 3)) = w (Committed 4) + fN c2.
  Proof.
    intros H1 Hg H. unfold example_cs in H. rewrite !Forall_cons_iff in H. destruct H as (Ha & Hb & Hr & _).
    rewrite lc_val_app, lc_val_add, !lc_val_var in Ha. rewrite lc_val_app, lc_val_add, !lc_val_var in Hb. rewrite lc_val_sub, lc_val_add, !lc_val_var, lc_val_const in Hr by exact H1. cbn in Ha, Hb.
    assert (El : w (Committed 0) + w (Committed 1) = w (MulL 0)) by (transitivity (w (MulL 0) + (w (Committed 0) + w (Committed 1) + (- (1) * w (MulL 0) + 0))); [ring|rewrite Ha; ring]).
    assert (Er : w (Committed 2) + w (Committed 3) = w (MulR 0)) by (transitivity (w (MulR 0) + (w (Committed 2) + w (Committed 3) + (- (1) * w (MulR 0) + 0))); [ring|rewrite Hb; ring]).
    rewrite El, Er, <- Hg. transitivity (w (Committed 4) + fN c2 - (w (Committed 4) + fN c2 - w (MulO 0))); [ring|rewrite Hr; ring].
  Qed.
  Lemma example_eq (z c1 c a b : F) : z <> 0 -> z * (z * (z * (c1 + c - a * b))) = 0 -> a * b = c1 + c.
  Proof.
    intros Hz H. repeat (apply fmul_eq_0 in H as [H|H]; [contradiction|]). transitivity (c1 + c - (c1 + c - a * b)); [ring|]. rewrite H. ring.
  Qed.
  Lemma example_eq_inv (z c1 c a b : F) : a * b = c1 + c -> z * (z * (z * (c1 + c - a * b))) = 0.
  Proof. intros ->. ring. Qed.
  Lemma challenges_nonzero pf (t t2 : VState V) y z x : (forall tr lb, exists c tr', challenge_scalar E tr lb = Some (c, tr') /\ c <> 0) -> r1cs_challenges E pf t = Some (t2, y, z, x) -> z <> 0 /\ x <> 0.
  Proof.
    intros Hg. unfold r1cs_challenges. destruct (v_create_randomized E _) as [[t3|]|]; try discriminate.
    destruct (challenge_scalar E _ "y") as [[y' tr1]|]; [|discriminate]. cbn [opt_bind].
    destruct (Hg tr1 "z"%string) as (z' & tr2 & Ez & Hz). rewrite Ez. cbn [opt_bind].
    destruct (append_Ts E _ _ _ tr2) as [tr3|]; [|discriminate]. cbn [opt_bind].
    destruct (challenge_scalar E tr3 "u") as [[u' tr4]|]; [|discriminate]. cbn [opt_bind].
    destruct (Hg tr4 "x"%string) as (x' & tr5 & Ex & Hx). rewrite Ex. cbn [opt_bind]. intros H. apply Some_inj in H. injection H as _ _ <- <-. split; assumption.
  Qed.
  Lemma example_shape (p1 p2 p3 p4 p5 : V) c2 t : example_statement E [p1; p2; p3; p4; p5] c2 = Some t -> v_size t = 1%nat /\ v_cs t = example_cs c2.
  Proof.
    unfold example_statement. destruct (v_commits_spec E [p1; p2; p3; p4; p5] (v_new (test_transcript "R1CSExampleGadget"))) as [tr1 Hc]. rewrite Hc. intros H. apply Some_inj in H. subst t. split; reflexivity.
  Qed.
  Lemma example_verified dbg rr pf coms c2 t : example_statement E coms c2 = Some t -> example_verify E dbg rr pf pc g coms c2 = Some (Ok tt) -> r1cs_verify E dbg rr pf pc g t = Some (Ok tt).
  Proof.
    intros Hst. unfold example_verify. rewrite Hst. cbn [opt_bind]. generalize (r1cs_verify E dbg rr pf pc g t). intros [[[]|e]|] H; [reflexivity|discriminate H|discriminate H].
  Qed.
End ExampleClient.

(** The prover returns a proof for all values if there is one generator, and the
    proof is accepted with the public value [c] exactly when the equation holds with [c] --
    also when [c] is chosen after the proof -- unless a challenge or the verifier's random
    scalar is zero. *)
Theorem C78_example_exact : forall (F : Field) (V : VSpace F) (E : TrEnv V) pc g dbg rnd (a1 a2 b1 b2 c1 c2 : N) (d1 d2 d3 d4 d5 : F),
  gens_wf g -> (1 <= gens_capacity g < 2 ^ 32)%nat -> (forall tr lb, exists c tr', challenge_scalar E tr lb = Some (c, tr') /\ c <> 0) -> pcB pc <> v0 ->
  let values := [(a1, d1); (a2, d2); (b1, d3); (b2, d4); (c1, d5)] in
  let coms := map (fun '(v, b) => pc_commit pc (fN v) b) values in
  exists pf, example_prove E dbg rnd pc g values c2 = Some (Ok (pf, coms)) /\
    (Forall (fun P => P <> v0) (validated_points (op_degree_of 0) pf) ->
     forall dbg' rr c, rr <> 0 ->
       (example_verify E dbg' rr pf pc g coms c = Some (Ok tt) <-> (fN a1 + fN a2) * (fN b1 + fN b2) = fN c1 + fN c :> F) /\
       (example_verify E dbg' rr pf pc g coms c = Some (Ok tt) \/ example_verify E dbg' rr pf pc g coms c = Some (Err VerificationError))).
Proof.
  intros F V E pc g dbg rnd a1 a2 b1 b2 c1 c2 d1 d2 d3 d4 d5 Hw [Hc1 Hc] Hch HB values coms.
  destruct (example_session E pc g a1 a2 b1 b2 c1 d1 d2 d3 d4 d5) as (s & t & Hd & Hvec & Hsz & Hcs & Hall). fold values coms in Hall.
  destruct (Hall c2) as (Hs2 & _ & Hiss & Hpr & _).
  destruct (C08_prove_total F V E pc g _ _ _ dbg rnd Hs2 Hd Hw Hch) as (pf & trf & Hp); [change (p_vec _) with (p_vec s); rewrite Hvec; cbn; lia|change (p_size _) with (p_size s); rewrite Hsz; exact Hc1|exact Hiss|].
  exists pf. rewrite Hpr, Hp. split; [reflexivity|]. intros Hnz dbg' rr c Hr.
  destruct (Hall c) as (Hs & Hval & _ & _ & Hst). rewrite (prove_with E dbg rnd pc g s) in Hp by (rewrite ?Hcs; auto; reflexivity). rewrite <- (prove_with E dbg rnd pc g s (example_cs c)) in Hp by (rewrite ?Hcs; auto; reflexivity).
  destruct (C10_exact F V E pc g _ _ _ dbg rnd pf trf Hs Hd Hw Hc HB Hp) as (t2 & y & z & x & Hcha & Hx); [change (p_vec _) with (p_vec s); rewrite Hvec; exact Hnz|].
  destruct (challenges_nonzero E pf _ t2 y z x Hch Hcha) as [Hz0 Hx0]. destruct (Hx dbg' rr) as [Hiff Hdec]. change (p_cs (p_restated s (example_cs c))) with (example_cs (F := F) c) in Hiff. rewrite Hval in Hiff. clear Hx.
  unfold example_verify. rewrite Hst. cbn [opt_bind]. split; [split|].
  - intros H. apply example_eq with (z := z); [exact Hz0|]. destruct Hdec as [Hok|He]; [|rewrite He in H; discriminate H]. apply Hiff in Hok. destruct Hok as [H0|[H0|H0]]; [contradiction|contradiction|exact H0].
  - intros H. assert (Hok : r1cs_verify E dbg' rr pf pc g (v_restated t (example_cs c)) = Some (Ok tt)) by (apply Hiff; right; right; apply example_eq_inv; exact H). rewrite Hok. reflexivity.
  - destruct Hdec as [Hok|He]; [left; rewrite Hok; reflexivity|right; rewrite He; reflexivity].
Qed.

(** For proofs of any prover that knows the coefficients of its points: it knows a relation
    between the generators or the opened values satisfy the equation.  (Missing as in
    C66.) *)
Theorem C78_example_sound_partial : forall (F : Field) (V : VSpace F) (N : nat) (r1 r2 r3 r4 r5 : FreeV F (2 + (N + N))) (t2 : VState (FreeV F (2 + (N + N)))) AI1 AO1 SS1 AI2 AO2 SS2,
  v_V t2 = [r1; r2; r3; r4; r5] -> v_vec t2 = [] ->
  unless_unlucky N t2 (fun y z T u x tx txb eb w Ls Rs us a b rr =>
    let pf := mkProof AI1 AO1 SS1 AI2 AO2 SS2 T tx txb eb (mkIPP Ls Rs a b) in
    forall (E : TrEnv V) dbg pc g Gs Hs c2 t vt,
      let phi := free_eval (generators pc Gs Hs) in
      gens_wf g -> share_G g 0 N = Some Gs -> share_H g 0 N = Some Hs -> length Rs = length Ls -> next_power_of_two (v_size t2) = N ->
      example_statement E (map phi [r1; r2; r3; r4; r5]) c2 = Some t ->
      all_challenges E (map_proof phi pf) t = Some (map_vstate phi t2, (y, z, u, x, w), us) ->
      example_verify E dbg rr (map_proof phi pf) pc g (map phi [r1; r2; r3; r4; r5]) c2 = Some (Ok tt) ->
      v_scalars_and_points E dbg rr (map_proof phi pf) t = Some (Ok vt) ->
      let c := combined N (vt_scalars vt) (all_points t2 pf) (vt_fixed vt) in
      (c <> v0 /\ free_eval (generators pc Gs Hs) c = v0) \/
      (on_B N r1 + on_B N r2) * (on_B N r3 + on_B N r4) = on_B N r5 + fN c2).
Proof.
  intros F V N r1 r2 r3 r4 r5 t2 AI1 AO1 SS1 AI2 AO2 SS2 HV Hvec.
  eapply unlucky_mono; [|apply (C66_sound_even_partial F V N t2 1 AI1 AO1 SS1 AI2 AO2 SS2); rewrite Hvec; [reflexivity|intros cd i []]].
  cbv beta zeta. intros y z T u x tx txb eb w Ls Rs us a b rr Hg E dbg pc g Gs Hs c2 t vt Hw HGs HHs HR HN Hst Hch Hver Hvt.
  destruct (example_shape E _ _ _ _ _ _ _ Hst) as [Hsz Hcs]. pose proof (example_verified E pc g _ _ _ _ _ _ Hst Hver) as Hv.
  destruct (challenges_state _ _ _ _ _ _ Hch) as [_ Hinc].
  destruct (Hg E dbg pc g t Gs Hs vt Hw HGs HHs Hsz HR HN Hch Hv Hvt) as [Hrel|Hsat]; [left; exact Hrel|right].
  rewrite Hcs in Hinc. clear - Hinc Hsat HV.
  destruct (PropsConserve.satisfies_incl _ _ _ Hinc Hsat) as (H1 & H2 & H3).
  pose proof (example_means _ c2 H1 (H2 0%nat) H3) as H. cbn [extracted] in H. rewrite HV in H. exact H.
Qed.
Print Assumptions C78_example_exact.

Print Assumptions C78_example_sound_partial.

(** ** Examples *)

(** The value 11 in 4 bits; all challenges are 5. *)
(* test data, no code modelled *)
Definition cl_env : TrEnv (RegV F101) := const_env (RegV F101) (z101 5).
Lemma cl_env_good : forall tr lb, exists c tr', challenge_scalar cl_env tr lb = Some (c, tr') /\ c <> 0.
Proof. intros tr lb; apply const_env_good; apply feqb_false; vm_compute; reflexivity. Qed.
Lemma cl_gens : gens_wf g101 /\ (1 <= gens_capacity g101 < 2 ^ 32)%nat.
Proof.
  split; [apply gens_wf_new|]. split; [apply Nat.leb_le; vm_compute; reflexivity|].
  apply (Nat.lt_le_trans _ (2 ^ 8)); [apply Nat.ltb_lt; vm_compute; reflexivity|apply Nat.pow_le_mono_r; lia].
Qed.
(* test helper, no code modelled *)
Definition no_zero (pf : R1CSProof (RegV F101)) : bool := forallb (fun P => negb (veqb P v0)) (validated_points (op_degree_of 0) pf).
Lemma no_zero_true pf : no_zero pf = true -> Forall (fun P => P <> v0) (validated_points (op_degree_of 0) pf).
Proof. intros H. apply Forall_forall. intros P HP. unfold no_zero in H. rewrite forallb_forall in H. specialize (H P HP). intros ->. rewrite veqb_refl in H. discriminate. Qed.
Example C77_complete_demo : gens_wf g101 /\ (gens_capacity g101 < 2 ^ 32)%nat /\
  (forall tr lb, exists c tr', challenge_scalar cl_env tr lb = Some (c, tr') /\ c <> 0) /\
  (4 <= 64)%nat /\ (11 < 2 ^ N.of_nat 4)%N /\ (next_power_of_two 4 <= gens_capacity g101)%nat /\
  exists pf com, range_prove cl_env true rnd101 pc101 g101 11 (z101 8) 4 = Some (Ok (pf, com)) /\ Forall (fun P => P <> v0) (validated_points (op_degree_of 0) pf).
Proof.
  split; [apply cl_gens|]. split; [apply cl_gens|]. split; [apply cl_env_good|]. split; [lia|]. split; [reflexivity|]. split; [apply Nat.leb_le; vm_compute; reflexivity|].
  assert (H : match range_prove cl_env true rnd101 pc101 g101 11 (z101 8) 4 with Some (Ok (pf, _)) => no_zero pf | _ => false end = true) by (vm_compute; reflexivity).
  destruct (range_prove _ _ _ _ _ _ _ _) as [[[pf com]|]|]; [|discriminate H|discriminate H]. exists pf, com. split; [reflexivity|apply no_zero_true, H].
Qed.
(** The value 19 in 4 bits: the prover returns a proof. *)
Example C77_rejects_demo : gens_wf g101 /\ (gens_capacity g101 < 2 ^ 32)%nat /\ pcB pc101 <> v0 /\ (4 <= 64)%nat /\ (2 ^ N.of_nat 4 <= 19 < pf_mod (FpPF PM101))%N /\
  exists pf com t t2 y z x, range_prove E101 true rnd101 pc101 g101 19 (z101 8) 4 = Some (Ok (pf, com)) /\ Forall (fun P => P <> v0) (validated_points (op_degree_of 0) pf) /\
    range_statement E101 true com 4 = Some t /\ r1cs_challenges E101 pf t = Some (t2, y, z, x) /\ x <> 0 /\ (z101 7 : F101) <> 0.
Proof.
  split; [apply cl_gens|]. split; [apply cl_gens|]. split; [apply (proj1 (veqb_false _ _)); vm_compute; reflexivity|]. split; [lia|]. split; [split; [discriminate|reflexivity]|].
  assert (H : match range_prove E101 true rnd101 pc101 g101 19 (z101 8) 4 with Some (Ok (pf, com)) => match range_statement E101 true com 4 with Some t =>
    match r1cs_challenges E101 pf t with Some (_, _, _, x) => no_zero pf && negb (feqb x 0) | None => false end | None => false end | _ => false end = true) by (vm_compute; reflexivity).
  destruct (range_prove _ _ _ _ _ _ _ _) as [[[pf com]|]|]; [|discriminate H|discriminate H]. destruct (range_statement _ _ _ _) as [t|] eqn:Et; [|discriminate H].
  destruct (r1cs_challenges _ _ _) as [[[[t2 y] z] x]|] eqn:Ec; [|discriminate H]. apply andb_prop in H as [H1 H2]. apply negb_true_iff in H2.
  exists pf, com, t, t2, y, z, x. split; [reflexivity|]. split; [apply no_zero_true, H1|]. split; [exact Et|]. split; [exact Ec|]. split; [apply feqb_false, H2|]. apply feqb_false; vm_compute; reflexivity.
Qed.
(** With challenges from the transcript. *)
(* test data, no code modelled *)
Definition range_accepts (v : N) (n n' : nat) : bool :=
  match range_prove E101 true rnd101 pc101 g101 v (z101 8) n with
  | Some (Ok (pf, com)) => match range_verify E101 true (z101 7) pf pc101 g101 com n' with Some (Ok _) => true | _ => false end
  | _ => false
  end.
Example C77_accept_test : (range_accepts 11 4 4, range_accepts 15 4 4, range_accepts 16 4 4, range_accepts 19 4 4, range_accepts 3 4 3) = (true, true, false, false, false).
Proof. vm_compute. reflexivity. Qed.
Example C77_wide_demo : (64 < 65)%nat /\ range_prove E101 false rnd101 pc101 g101 11 (z101 8) 65 <> None.
Proof.
  split; [lia|]. intros H. apply (f_equal (fun o => match o with None => true | Some _ => false end)) in H. vm_compute in H. discriminate H.
Qed.

(** (3 + 4) * (6 + 1) = 40 + 9, the numbers of the test. *)
(* test data, no code modelled *)
Definition ex_values : list (N * F101) := [(3, z101 5); (4, z101 6); (6, z101 7); (1, z101 8); (40, z101 9)]%N.
Example C78_exact_demo : gens_wf g101 /\ (1 <= gens_capacity g101 < 2 ^ 32)%nat /\
  (forall tr lb, exists c tr', challenge_scalar cl_env tr lb = Some (c, tr') /\ c <> 0) /\ pcB pc101 <> v0 /\ (z101 7 : F101) <> 0 /\
  exists pf coms, example_prove cl_env true rnd101 pc101 g101 ex_values 9 = Some (Ok (pf, coms)) /\ Forall (fun P => P <> v0) (validated_points (op_degree_of 0) pf).
Proof.
  split; [apply cl_gens|]. split; [apply cl_gens|]. split; [apply cl_env_good|]. split; [apply (proj1 (veqb_false _ _)); vm_compute; reflexivity|].
  split; [apply feqb_false; vm_compute; reflexivity|].
  assert (H : match example_prove cl_env true rnd101 pc101 g101 ex_values 9 with Some (Ok (pf, _)) => no_zero pf | _ => false end = true) by (vm_compute; reflexivity).
  destruct (example_prove _ _ _ _ _ _ _) as [[[pf com]|]|]; [|discriminate H|discriminate H]. exists pf, com. split; [reflexivity|apply no_zero_true, H].
Qed.
(* test data, no code modelled *)
Definition example_accepts (c2 c : N) : bool :=
  match example_prove E101 true rnd101 pc101 g101 ex_values c2 with
  | Some (Ok (pf, coms)) => match example_verify E101 true (z101 7) pf pc101 g101 coms c with Some (Ok _) => true | _ => false end
  | _ => false
  end.
Example C78_accept_test : (example_accepts 9 9, example_accepts 10 10, example_accepts 9 10, example_accepts 10 9) = (true, false, false, true).
Proof. vm_compute. reflexivity. Qed.

(** The honest prover's proofs meet all hypotheses of [C77_range_sound_partial] and
    [C78_example_sound_partial] except that the challenges are lucky; the prover's
    coefficients are its points. *)
(* test data, no code modelled *)
Definition rg_run := range_prove E6 true rnd6 pc6 g6 2 (z101 8) 2.
Lemma map6 : forall l : list W6, map (free_eval (V := W6) gens6) l = l.
Proof. intros l; rewrite <- (map_id l) at 2; apply map_ext; apply gens6_id. Qed.
Lemma proof6 (pf : R1CSProof W6) : map_proof (free_eval (V := W6) gens6) pf = pf.
Proof.
  destruct pf as [p1 p2 p3 p4 p5 p6 T tx txb eb [Ls Rs a b]]. unfold map_proof. cbn [A_I1 A_O1 S1 A_I2 A_O2 S2 pT pt_x pt_x_blinding pe_blinding pipp ipp_L ipp_R ipp_a ipp_b].
  rewrite !gens6_id, !map6. reflexivity.
Qed.
Lemma vstate6 (t2 : VState W6) : map_vstate (free_eval (V := W6) gens6) t2 = t2.
Proof.
  destruct t2 as [q1 q2 q3 q4 q5 q6 q7]. unfold map_vstate. cbn [v_tr v_cs v_vec v_num v_V v_def v_pend]. rewrite map6. f_equal.
  rewrite <- (map_id q3) at 2. apply map_ext. intros [c' d]. cbn [fst snd]. rewrite gens6_id. reflexivity.
Qed.
Example C77_sound_demo : exists pf com t t2 y z u x w us, rg_run = Some (Ok (pf, com)) /\
  let phi := free_eval (V := W6) gens6 in
  gens_wf g6 /\ v_V t2 = [com] /\ v_vec t2 = [] /\ length (ipp_R (pipp pf)) = length (ipp_L (pipp pf)) /\
  next_power_of_two (v_size t2) = 2%nat /\ range_statement E6 true (phi com) 2 = Some t /\
  all_challenges E6 (map_proof phi pf) t = Some (map_vstate phi t2, (y, z, u, x, w), us) /\
  range_verify E6 true (z101 7) (map_proof phi pf) pc6 g6 (phi com) 2 = Some (Ok tt) /\ on_B 2 com = z101 2.
Proof.
  assert (H : match rg_run with Some (Ok (pf, com)) => match range_statement E6 true com 2 with Some t => match all_challenges E6 pf t with
      | Some (t2, (y, z, u, x, w), us) => (next_power_of_two (v_size t2) =? 2)%nat && (length (ipp_R (pipp pf)) =? length (ipp_L (pipp pf)))%nat &&
          (length (v_vec t2) =? 0)%nat && list_same veqb (v_V t2) [com] && feqb (on_B 2 com) (z101 2) &&
          match range_verify E6 true (z101 7) pf pc6 g6 com 2 with Some (Ok tt) => true | _ => false end
      | _ => false end | _ => false end | _ => false end = true) by (vm_compute; reflexivity).
  destruct rg_run as [[[pf com]|]|]; [|discriminate H|discriminate H]. destruct (range_statement E6 true com 2) as [t|] eqn:Es; [|discriminate H].
  destruct (all_challenges E6 pf t) as [[[t2 [[[[y z] u] x] w]] us]|] eqn:Ec; [|discriminate H].
  apply andb_prop in H as [H H6]. apply andb_prop in H as [H H5]. apply andb_prop in H as [H H4]. apply andb_prop in H as [H H3]. apply andb_prop in H as [H1 H2].
  apply Nat.eqb_eq in H1, H2, H3. apply (list_same_true _ (fun a b => proj1 (veqb_true a b))) in H4. apply feqb_true in H5.
  exists pf, com, t, t2, y, z, u, x, w, us. split; [reflexivity|]. cbv zeta. rewrite proof6, vstate6, gens6_id.
  split; [apply gens_wf6|]. split; [exact H4|]. split; [apply length_zero_iff_nil; exact H3|]. split; [exact H2|]. split; [exact H1|].
  split; [exact Es|]. split; [exact Ec|]. split; [|exact H5].
  destruct (range_verify _ _ _ _ _ _ _ _) as [[[]|]|]; [|discriminate H6|discriminate H6]. reflexivity.
Qed.
(** The same with one generator on each side. *)
Section Four.
  Context {F : Field}.
  Add Field FFfour : (f_th F).
  (* test data, no code modelled *)
  Definition unit4 (k : nat) : FreeV F 4 := free_mk (fun i => if Nat.eqb i k then 1 else 0).
  Lemma units4_id (a : FreeV F 4) : msm (proj1_sig a) [unit4 0; unit4 1; unit4 2; unit4 3] = a.
  Proof.
    destruct a as [l Hl]. apply coord_ext. intros k Hk. pose proof (proj1 (Nat.eqb_eq _ _) Hl) as Hl'.
    do 4 (destruct l as [|? l]; [discriminate Hl'|]). destruct l; [|discriminate Hl']. cbn [proj1_sig msm].
    do 4 (destruct k as [|k]; [cbn [vadd vsmul v0 FreeV]; rewrite !coord_mk by lia; unfold unit4; rewrite ?coord_mk by lia; cbn [Nat.eqb coord proj1_sig nth]; ring|]). lia.
  Qed.
End Four.
(* test data, no code modelled *)
Definition W4 : VSpace F101 := FreeV F101 4.
(* test data or vocabulary of statements, no code modelled *)
Definition E4 : TrEnv W4 := mkTrEnv (V := W4) (fun a => concat (map (enc_fp PM101) (proj1_sig a))) (enc_fp PM101) (challenge_bytes E101) (sha3_256 E101) (from_random_bytes E101).
(* test data or vocabulary of statements, no code modelled *)
Definition pc4 : PedersenGens W4 := mkPC (V := W4) (unit4 0) (unit4 1).
(* test data or vocabulary of statements, no code modelled *)
Definition g4 : BPGens W4 := mkBP (V := W4) 1 1 [[unit4 2]] [[unit4 3]].
(* test data or vocabulary of statements, no code modelled *)
Definition gens4 : list W4 := generators pc4 [unit4 2] [unit4 3].
(* test data or vocabulary of statements, no code modelled *)
Definition eg_run := example_prove E4 true rnd6 pc4 g4 [(3, z101 5); (4, z101 6); (6, z101 7); (1, z101 8); (40, z101 9)]%N 9.
Lemma gens4_id (a : FreeV F101 4) : free_eval (V := W4) gens4 a = a.
Proof. exact (units4_id a). Qed.
Lemma gens_wf4 : gens_wf g4 /\ share_G g4 0 1 = Some [unit4 2] /\ share_H g4 0 1 = Some [unit4 3].
Proof. split; [|split; reflexivity]. exists [unit4 2], [unit4 3]. repeat split. Qed.
Lemma map4 : forall l : list W4, map (free_eval (V := W4) gens4) l = l.
Proof. intros l; rewrite <- (map_id l) at 2; apply map_ext; apply gens4_id. Qed.
Lemma proof4 (pf : R1CSProof W4) : map_proof (free_eval (V := W4) gens4) pf = pf.
Proof.
  destruct pf as [p1 p2 p3 p4 p5 p6 T tx txb eb [Ls Rs a b]]. unfold map_proof. cbn [A_I1 A_O1 S1 A_I2 A_O2 S2 pT pt_x pt_x_blinding pe_blinding pipp ipp_L ipp_R ipp_a ipp_b].
  rewrite !gens4_id, !map4. reflexivity.
Qed.
Lemma vstate4 (t2 : VState W4) : map_vstate (free_eval (V := W4) gens4) t2 = t2.
Proof.
  destruct t2 as [q1 q2 q3 q4 q5 q6 q7]. unfold map_vstate. cbn [v_tr v_cs v_vec v_num v_V v_def v_pend]. rewrite map4. f_equal.
  rewrite <- (map_id q3) at 2. apply map_ext. intros [c' d]. cbn [fst snd]. rewrite gens4_id. reflexivity.
Qed.
Example C78_sound_demo : exists pf coms t t2 y z u x w us, eg_run = Some (Ok (pf, coms)) /\
  let phi := free_eval (V := W4) gens4 in
  gens_wf g4 /\ v_V t2 = coms /\ length coms = 5%nat /\ v_vec t2 = [] /\ length (ipp_R (pipp pf)) = length (ipp_L (pipp pf)) /\
  next_power_of_two (v_size t2) = 1%nat /\ example_statement E4 (map phi coms) 9 = Some t /\
  all_challenges E4 (map_proof phi pf) t = Some (map_vstate phi t2, (y, z, u, x, w), us) /\
  example_verify E4 true (z101 7) (map_proof phi pf) pc4 g4 (map phi coms) 9 = Some (Ok tt) /\ map (on_B 1) coms = map z101 [3; 4; 6; 1; 40]%Z.
Proof.
  assert (H : match eg_run with Some (Ok (pf, coms)) => match example_statement E4 coms 9 with Some t => match all_challenges E4 pf t with
      | Some (t2, (y, z, u, x, w), us) => (next_power_of_two (v_size t2) =? 1)%nat && (length (ipp_R (pipp pf)) =? length (ipp_L (pipp pf)))%nat &&
          (length (v_vec t2) =? 0)%nat && list_same veqb (v_V t2) coms && (length coms =? 5)%nat && list_same feqb (map (on_B 1) coms) (map z101 [3; 4; 6; 1; 40]%Z) &&
          match example_verify E4 true (z101 7) pf pc4 g4 coms 9 with Some (Ok tt) => true | _ => false end
      | _ => false end | _ => false end | _ => false end = true) by (vm_compute; reflexivity).
  destruct eg_run as [[[pf coms]|]|]; [|discriminate H|discriminate H]. destruct (example_statement E4 coms 9) as [t|] eqn:Es; [|discriminate H].
  destruct (all_challenges E4 pf t) as [[[t2 [[[[y z] u] x] w]] us]|] eqn:Ec; [|discriminate H].
  apply andb_prop in H as [H H7]. apply andb_prop in H as [H H6]. apply andb_prop in H as [H H5]. apply andb_prop in H as [H H4]. apply andb_prop in H as [H H3]. apply andb_prop in H as [H1 H2].
  apply Nat.eqb_eq in H1, H2, H3, H5. apply (list_same_true _ (fun a b => proj1 (veqb_true a b))) in H4. apply (list_same_true _ (fun a b => proj1 (feqb_true a b))) in H6.
  exists pf, coms, t, t2, y, z, u, x, w, us. split; [reflexivity|]. cbv zeta. rewrite proof4, vstate4, map4.
  split; [apply gens_wf4|]. split; [exact H4|]. split; [exact H5|]. split; [apply length_zero_iff_nil; exact H3|]. split; [exact H2|]. split; [exact H1|].
  split; [exact Es|]. split; [exact Ec|]. split; [|exact H6].
  destruct (example_verify _ _ _ _ _ _ _ _) as [[[]|]|]; [reflexivity|discriminate H7|discriminate H7].
Qed.
