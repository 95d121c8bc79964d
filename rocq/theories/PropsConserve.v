(** * Conservation of value by accepted pours: the part of C72 that holds *)
From Verif Require Import IPPProofs SoundSpec SoundLift CSProofs UtilProofs CSLogic CSMore R1CS R1CSSpec R1CSCore SoundFree R1CSProofs R1CSVerif R1CSMain R1CSMisc CircuitSize PourProofs CoinProofs PropsSound PropsCoin PropsSize.
Local Open Scope F_scope.

Section Conserve.
  Context {F0 F1 : PField} {P0 : SWCurve F1 F0} {P1 : SWCurve F0 F1} {FC : Field} {C : VSpace FC}.
  Variables (E0 : TrEnv P0) (enc1 : P1 -> bytes) (enc_pk : C -> bytes) (sha3 : bytes -> bytes).

  Lemma run_all_cs {F : Field} {V : VSpace F} (E : TrEnv V) : forall cbs (s s' : VState V), v_run_all E cbs s = Some (Ok s') -> incl (v_cs s) (v_cs s').
  Proof.
    induction cbs as [|cb cbs IH]; intros s s' H; cbn [v_run_all] in H; [apply Some_inj in H; injection H as <-; apply incl_refl|].
    destruct (vrun E cb s) as [[s1 [?|?]]|] eqn:R; try discriminate H. destruct (vrun_cs E _ _ _ _ R) as (r & Hr).
    eapply incl_tran; [|exact (IH _ _ H)]. rewrite Hr. apply incl_appl, incl_refl.
  Qed.
  Lemma challenges_state {F : Field} {V : VSpace F} (E : TrEnv V) pf (t t2 : VState V) cs us : all_challenges E pf t = Some (t2, cs, us) -> v_vec t2 = v_vec t /\ incl (v_cs t) (v_cs t2).
  Proof.
    unfold all_challenges. destruct (v_pad_facts t) as (Q1 & Q2 & Q3 & Q4 & Q5 & Q6 & Q7). cbv zeta in *. destruct (v_create_randomized E _) as [[t3|]|] eqn:Er; try discriminate. intros H.
    assert (t3 = t2).
    { repeat match type of H with opt_bind ?o _ = _ => destruct o as [?|]; [|discriminate H]; cbn [opt_bind] in H | (let '(_, _) := ?p in _) = _ => destruct p end.
      destruct (ipp_challenges _ _ _ _) as [[[us' ?]|]|]; try discriminate H. apply Some_inj in H. congruence. }
    subst t3. destruct (v_create_randomized_frame E _ _ Er) as (Ev & _). split; [rewrite Ev; exact Q2|].
    unfold v_create_randomized in Er. cbv zeta in Er. change (v_def (v_set_num (v_set_tr ?a ?b) ?c ?d)) with (v_def a) in Er. rewrite Q5 in Er.
    destruct (v_def t) as [|cb cbs].
    - apply Some_inj in Er. injection Er as <-. cbn. rewrite Q6. apply incl_refl.
    - apply run_all_cs in Er. cbn in Er. rewrite Q6 in Er. exact Er.
  Qed.
  Lemma spend_dims d L prm (t : CurveTree P0 P1) pk p p' (t0 t0' : VState P0) v : verification_commitments t p = Some p' -> spend_dim E0 enc1 enc_pk sha3 d L prm t pk p' t0 = Some (t0', v) ->
    length (v_vec t0') = (length (v_vec t0) + length (pa_even p) + 1)%nat.
  Proof.
    intros Hp. unfold spend_dim. destruct (even_gadget E0 enc1 L prm t p' t0) as [te|] eqn:Eg; [|discriminate]. cbn [opt_bind].
    assert (Hr : exists o, root_is_odd p' = Some o /\ (if o then length (pa_even p') else length (pa_even p') - 1)%nat = length (pa_even p)).
    { unfold verification_commitments, guard in Hp. unfold root_is_odd, guard. destruct t as [ct|ct].
      - destruct (Nat.eqb_spec (length (pa_even p) + 1) (length (pa_odd p))) as [Hl|]; [|discriminate Hp]. destruct (n_commitment ct 0); [|discriminate Hp]. cbn [opt_bind] in Hp. apply Some_inj in Hp. subst p'. cbn [pa_even pa_odd length].
        exists false. destruct (Nat.eqb_spec (S (length (pa_even p)) + 1) (length (pa_odd p))); [lia|]. destruct (Nat.eqb_spec (S (length (pa_even p))) (length (pa_odd p))); [|lia]. split; [reflexivity|lia].
      - destruct (Nat.eqb_spec (length (pa_even p)) (length (pa_odd p))) as [Hl|]; [|discriminate Hp]. destruct (n_commitment ct 0); [|discriminate Hp]. cbn [opt_bind] in Hp. apply Some_inj in Hp. subst p'. cbn [pa_even pa_odd length].
        exists true. destruct (Nat.eqb_spec (length (pa_even p) + 1) (S (length (pa_odd p)))); [|lia]. split; reflexivity. }
    destruct Hr as (o & Hr & Hl). pose proof (even_gadget_dims E0 enc1 _ _ _ _ _ _ _ Hr Eg) as D. rewrite Hl in D. apply (f_equal (@length nat)) in D. unfold dims in D. rewrite app_length, !map_length, repeat_length in D.
    assert (Hv : v_vec (fst (v_commit_vec E0 te d (pa_selected p'))) = v_vec te ++ [(pa_selected p', d)]) by reflexivity. destruct (v_commit_vec E0 te d (pa_selected p')) as [t1 us]. cbn [fst] in Hv.
    destruct (nth_error us 1) as [v1'|]; [|discriminate]. cbn [opt_bind]. destruct (nth_error us 0) as [v0'|]; [|discriminate]. cbn [opt_bind]. intros H. apply Some_inj in H. injection H as <- _.
    cbn [v_constrain v_vec]. rewrite Hv, app_length. cbn [length]. lia.
  Qed.
  Lemma pour_count dbg L prm (t : CurveTree P0 P1) (po : Pour P0 P1 C) p0 p1 ro t0 : verification_commitments t (po_path0 po) = Some p0 -> verification_commitments t (po_path1 po) = Some p1 ->
    pour_even_circuit E0 enc1 enc_pk sha3 dbg L prm t po p0 p1 (v_new ro) = Some t0 -> length (v_vec t0) = (4 + (length (pa_even (po_path0 po)) + length (pa_even (po_path1 po))))%nat.
  Proof.
    intros H0 H1. rewrite pour_even_dim. unfold pour_dim. destruct (verify_mint E0 dbg _ (v_new ro)) as [[a va]|] eqn:R1; [|discriminate]. cbn [opt_bind]. destruct (mint_sound _ _ _ _ _ _ R1) as (_ & _ & L1 & _).
    destruct (verify_mint E0 dbg _ a) as [[b vb]|] eqn:R2; [|discriminate]. cbn [opt_bind]. destruct (mint_sound _ _ _ _ _ _ R2) as (_ & _ & L2 & _).
    destruct (spend_dim _ _ _ _ _ _ _ _ _ p0 b) as [[c vc]|] eqn:R3; [|discriminate]. cbn [opt_bind]. apply (spend_dims _ _ _ _ _ _ _ _ _ _ H0) in R3.
    destruct (spend_dim _ _ _ _ _ _ _ _ _ p1 c) as [[e ve]|] eqn:R4; [|discriminate]. cbn [opt_bind]. apply (spend_dims _ _ _ _ _ _ _ _ _ _ H1) in R4.
    intros H. apply Some_inj in H. subst t0. cbn [v_constrain v_vec]. cbn [v_new v_vec length] in L1. lia.
  Qed.
  Lemma pour_even_tuple (E1 : TrEnv P1) (enc0 : P0 -> bytes) dbg L prm t ro rr rr1 (po : Pour P0 P1 C) p0 p1 t0 vt0 vt1 : verification_commitments t (po_path0 po) = Some p0 -> verification_commitments t (po_path1 po) = Some p1 ->
    pour_even_circuit E0 enc1 enc_pk sha3 dbg L prm t po p0 p1 (v_new ro) = Some t0 -> pour_verify E0 E1 enc0 enc1 enc_pk sha3 dbg L prm t ro rr rr1 po = Some (vt0, vt1) -> v_scalars_and_points E0 dbg rr (po_even po) t0 = Some (Ok vt0).
  Proof.
    intros H0 H1 Hc. unfold pour_verify. rewrite H0, H1. cbn [opt_bind]. rewrite Hc. cbn [opt_bind]. destruct (v_scalars_and_points E0 dbg rr (po_even po) t0) as [[vt|]|]; [|discriminate|discriminate]. cbn [unwrap opt_bind].
    destruct (pour_odd_circuit E1 enc0 L prm t p0 p1 (v_new ro)) as [t1|]; [|discriminate]. cbn [opt_bind]. destruct (unwrap _) as [vt'|]; [|discriminate]. cbn [opt_bind]. intros H. apply Some_inj in H. congruence.
  Qed.
  Lemma completed_selected (t : CurveTree P0 P1) p p' : verification_commitments t p = Some p' -> pa_selected p' = pa_selected p.
  Proof. unfold verification_commitments, guard. intros H. destruct t as [ct|ct]; destruct (Nat.eqb _ _) in H; try discriminate H; destruct (n_commitment ct 0); try discriminate H; cbn [opt_bind] in H; apply Some_inj in H; subst p'; reflexivity. Qed.
  Lemma rep_nth N gens (t2 : VState (FreeV F0 (2 + (N + N)))) (t0 : VState P0) k (P : P0) d : v_vec (map_vstate (free_eval gens) t2) = v_vec t0 -> nth_error (v_vec t0) k = Some (P, d) -> free_eval gens (fst (nth k (v_vec t2) (v0, 0%nat))) = P.
  Proof.
    intros Hvec Hk. cbn [map_vstate v_vec] in Hvec. rewrite <- Hvec, nth_error_map in Hk. destruct (nth_error (v_vec t2) k) as [cd|] eqn:Ek; [|discriminate Hk]. cbn [option_map] in Hk. apply Some_inj in Hk.
    rewrite (nth_error_nth _ _ _ Ek). congruence.
  Qed.
End Conserve.
(** The values that a pour with the given representations mints and spends (specification). *)
Definition conserved {F0 F1 : PField} {P0 : SWCurve F1 F0} {P1 : SWCurve F0 F1} {FC : Field} {C : VSpace FC} (enc_pk : C -> bytes) (sha3 : bytes -> bytes) N (phi : FreeV F0 (2 + (N + N)) -> P0) (rep : nat -> FreeV F0 (2 + (N + N))) (po : Pour P0 P1 C) : Prop :=
  exists k0 k1 a0 a1,
    phi (rep 0%nat) = po_minted0 po /\ phi (rep 1%nat) = po_minted1 po /\ phi (rep k0) = pa_selected (po_path0 po) /\ phi (rep k1) = pa_selected (po_path1 po) /\
    on_G N 0 (rep 0%nat) = fN a0 /\ on_G N 0 (rep 1%nat) = fN a1 /\ (a0 < 2 ^ 64)%N /\ (a1 < 2 ^ 64)%N /\
    on_G N 1 (rep k0) = fN (le_value (sha3 (enc_pk (po_pk0 po)))) /\ on_G N 1 (rep k1) = fN (le_value (sha3 (enc_pk (po_pk1 po)))) /\
    on_G N 0 (rep 0%nat) + on_G N 0 (rep 1%nat) = on_G N 0 (rep k0) + on_G N 0 (rep k1) /\
    (forall b0 b1, on_G N 0 (rep k0) = fN b0 -> on_G N 0 (rep k1) = fN b1 -> (b0 < 2 ^ 64)%N -> (b1 < 2 ^ 64)%N -> (2 ^ 65 <= pf_mod F0)%N -> (a0 + a1 = b0 + b1)%N).
Section Core.
  Context {F0 F1 : PField} {P0 : SWCurve F1 F0} {P1 : SWCurve F0 F1} {FC : Field} {C : VSpace FC}.
  Variables (E0 : TrEnv P0) (enc1 : P1 -> bytes) (enc_pk : C -> bytes) (sha3 : bytes -> bytes).
  Lemma conserved_core N n1 (t2 : VState (FreeV F0 (2 + (N + N)))) AI1 AO1 AI2 AO2 gens dbg L prm t (po : Pour P0 P1 C) p0 p1 ro t0 : satisfies (extracted N n1 t2 AI1 AO1 AI2 AO2) (v_cs t0) ->
    v_vec (map_vstate (free_eval gens) t2) = v_vec t0 -> verification_commitments t (po_path0 po) = Some p0 -> verification_commitments t (po_path1 po) = Some p1 ->
    pour_even_circuit E0 enc1 enc_pk sha3 dbg L prm t po p0 p1 (v_new ro) = Some t0 -> conserved enc_pk sha3 N (free_eval gens) (fun k => fst (nth k (v_vec t2) (v0, 0%nat))) po.
  Proof.
    intros Hs0 Hvec Hp0 Hp1 Hc.
    destruct (C53_conservation _ _ _ _ _ _ _ _ _ _ _ _ _ _ _ _ _ _ _ _ Hc Hs0) as (k0 & k1 & _ & N0 & N1 & N2 & N3 & T0 & T1 & Hsum & a0 & a1 & A0 & A1 & W0 & W1 & _ & Hint).
    exists k0, k1, a0, a1. rewrite <- (completed_selected _ _ _ Hp0), <- (completed_selected _ _ _ Hp1).
    split; [exact (rep_nth _ _ _ _ _ _ _ Hvec N0)|]. split; [exact (rep_nth _ _ _ _ _ _ _ Hvec N1)|]. split; [exact (rep_nth _ _ _ _ _ _ _ Hvec N2)|]. split; [exact (rep_nth _ _ _ _ _ _ _ Hvec N3)|].
    split; [exact W0|]. split; [exact W1|]. split; [exact A0|]. split; [exact A1|]. split; [exact T0|]. split; [exact T1|]. split; [exact Hsum|exact Hint].
  Qed.
  Lemma satisfies_incl {F : Field} (w : Var -> F) cs cs' : incl cs cs' -> satisfies w cs' -> satisfies w cs.
  Proof. intros Hi (S1 & S2 & S3). split; [exact S1|]. split; [exact S2|]. rewrite Forall_forall in *. intros lc Hin. apply S3, Hi, Hin. Qed.
End Core.

(** ** C72: nobody mints more than they spend *)
(** What holds of it, for provers that know the coefficients of all their points over the
    generators and use the generators [G], [B], [B~] only for the vector commitments: when the
    proof is accepted and the number of inner nodes on the two paths is even (as it is when both
    have the length of the tree), the committed values add up, the minted ones are below
    [2 ^ 64], and the tags of the spent coins belong to the keys -- unless the proof gives a
    relation between the generators or a challenge falls into a set of few values fixed before
    it.  Missing: commitments with coefficients on [H] ([C72_inflation_refuted]). *)
Theorem C72_conservation_partial : forall (F0 F1 : PField) (P0 : SWCurve F1 F0) (P1 : SWCurve F0 F1) (FC : Field) (C : VSpace FC) (N : nat) (t2 : VState (FreeV F0 (2 + (N + N)))) n1 AI1 AO1 SS1 AI2 AO2 SS2,
  (forall cd i, In cd (v_vec t2) -> on_H N i (fst cd) = 0) ->
  unless_unlucky N t2 (fun y z T u x tx txb eb w Ls Rs us a b rr =>
    let pf := mkProof AI1 AO1 SS1 AI2 AO2 SS2 T tx txb eb (mkIPP Ls Rs a b) in
    forall (E0 : TrEnv P0) (E1 : TrEnv P1) (enc0 : P0 -> bytes) (enc1 : P1 -> bytes) (enc_pk : C -> bytes) (sha3 : bytes -> bytes) dbg L (prm : SRParams P0 P1) t ro rr1 (po : Pour P0 P1 C) p0 p1 t0 pc g Gs Hs vt0 vt1,
      let phi := free_eval (generators pc Gs Hs) in
      let rep k := fst (nth k (v_vec t2) (v0, 0%nat)) in
      gens_wf g -> share_G g 0 N = Some Gs -> share_H g 0 N = Some Hs -> v_size t0 = n1 -> length Rs = length Ls -> next_power_of_two (v_size t2) = N ->
      Nat.even (length (pa_even (po_path0 po)) + length (pa_even (po_path1 po))) = true ->
      verification_commitments t (po_path0 po) = Some p0 -> verification_commitments t (po_path1 po) = Some p1 ->
      pour_even_circuit E0 enc1 enc_pk sha3 dbg L prm t po p0 p1 (v_new ro) = Some t0 ->
      po_even po = map_proof phi pf -> all_challenges E0 (po_even po) t0 = Some (map_vstate phi t2, (y, z, u, x, w), us) ->
      pour_verify E0 E1 enc0 enc1 enc_pk sha3 dbg L prm t ro rr rr1 po = Some (vt0, vt1) -> batch_verify [vt0] [] pc g = Some (Ok tt) ->
      let c := combined N (vt_scalars vt0) (all_points t2 pf) (vt_fixed vt0) in
      (c <> v0 /\ free_eval (generators pc Gs Hs) c = v0) \/
      conserved enc_pk sha3 N phi rep po).
Proof.
  intros F0 F1 P0 P1 FC C N t2 n1 AI1 AO1 SS1 AI2 AO2 SS2 HH.
  destruct (Nat.even (length (v_vec t2))) eqn:Hev.
  - eapply unlucky_mono; [|exact (C66_sound_even_partial F0 P0 N t2 n1 AI1 AO1 SS1 AI2 AO2 SS2 Hev HH)]. cbv beta zeta.
    intros y z T u x tx txb eb w Ls Rs us a b rr Hg E0 E1 enc0 enc1 enc_pk sha3 dbg L prm t ro rr1 po p0 p1 t0 pc g Gs Hs vt0 vt1 Hw HGs HHs Hn HR HN Hpe Hp0 Hp1 Hc Hpf Hch Hv Hb.
    apply (pour_even_tuple _ _ _ _ _ _ _ _ _ _ _ _ _ _ _ _ _ _ _ Hp0 Hp1 Hc) in Hv. rewrite Hpf in Hv, Hch.
    assert (Hok : r1cs_verify E0 dbg rr (map_proof (free_eval (generators pc Gs Hs)) (mkProof AI1 AO1 SS1 AI2 AO2 SS2 T tx txb eb (mkIPP Ls Rs a b))) pc g t0 = Some (Ok tt)) by (unfold r1cs_verify; rewrite Hv; exact Hb).
    destruct (Hg E0 dbg pc g t0 Gs Hs vt0 Hw HGs HHs Hn HR HN Hch Hok Hv) as [Hrel|Hsat]; [left; exact Hrel|right].
    destruct (challenges_state _ _ _ _ _ _ Hch) as [Hvec Hcs].
    eapply conserved_core; [exact (satisfies_incl _ _ _ Hcs Hsat)|exact Hvec|exact Hp0|exact Hp1|exact Hc].
  - eapply unlucky_mono; [|exact (C66_extraction F0 P0 N t2 n1 AI1 AO1 SS1 AI2 AO2 SS2)]. cbv beta zeta.
    intros y z T u x tx txb eb w Ls Rs us a b rr _ E0 E1 enc0 enc1 enc_pk sha3 dbg L prm t ro rr1 po p0 p1 t0 pc g Gs Hs vt0 vt1 Hw HGs HHs Hn HR HN Hpe Hp0 Hp1 Hc Hpf Hch Hv Hb. exfalso.
    apply (pour_count _ _ _ _ _ _ _ _ _ _ _ _ _ Hp0 Hp1) in Hc. destruct (challenges_state _ _ _ _ _ _ Hch) as [Hvec _]. cbn [map_vstate v_vec] in Hvec. rewrite <- Hvec, map_length in Hc.
    rewrite Hc, Nat.even_add, Hpe in Hev. discriminate Hev.
Qed.
Print Assumptions C72_conservation_partial.

(** ** The hypotheses are satisfiable *)
(** Coefficients of an honest prover's points: those of its vector commitments are the openings,
    those of the other points are multiples of [B]. *)
Section Honest.
  Context {F : Field} {V : VSpace F}.
  Add Field FFhon : (f_th F).
  Variables (E : TrEnv V) (pc : PedersenGens V) (g : BPGens V).
  (* test data, no code modelled *)
  Definition on_line N (c : F) : FreeV F (2 + (N + N)) := free_mk (fun k => nth k (c :: 0 :: zeros (N + N)) 0).
  (* test data, no code modelled *)
  Definition opening N (bv : F * list F) : FreeV F (2 + (N + N)) := free_mk (fun k => nth k (0 :: fst bv :: (snd bv ++ zeros (N - length (snd bv))) ++ zeros N) 0).
  Lemma on_line_eval N Gs Hs c : length Gs = N -> length Hs = N -> free_eval (generators pc Gs Hs) (on_line N c) = vsmul c (pcB pc).
  Proof.
    intros HG HH. assert (Hl : length (generators pc Gs Hs) = (2 + (N + N))%nat) by (unfold generators; rewrite !app_length; cbn [length]; lia). unfold on_line. rewrite (free_eval_mk _ _ Hl (c :: 0 :: zeros (N + N))) by (cbn [length]; rewrite zeros_length; reflexivity). unfold generators. cbn [app msm]. rewrite msm_zeros, vsmul_0_l. rewrite !vadd_0_r. reflexivity.
  Qed.
  Lemma opening_eval N Gs Hs bv : (length (snd bv) <= N)%nat -> share_G g 0 N = Some Gs -> length Gs = N -> length Hs = N -> free_eval (generators pc Gs Hs) (opening N bv) = vec_commitment pc g (fst bv) (snd bv).
  Proof.
    intros Hl HG HlG HlH. assert (Hg : length (generators pc Gs Hs) = (2 + (N + N))%nat) by (unfold generators; rewrite !app_length; cbn [length]; lia). unfold opening. rewrite (free_eval_mk _ _ Hg (0 :: fst bv :: (snd bv ++ zeros (N - length (snd bv))) ++ zeros N)) by (cbn [length]; rewrite !app_length, !zeros_length; lia). unfold generators, vec_commitment. cbn [app msm].
    rewrite (msm_app _ _ Gs Hs) by (rewrite app_length; rewrite zeros_length; lia). rewrite msm_zeros, vadd_0_r, vsmul_0_l, vadd_0_l. f_equal.
    unfold share_G in HG. destruct (G_vec g) as [|Gr Gt]; [discriminate HG|]. cbn [nth_error option_map nth] in *. apply Some_inj in HG.
    rewrite <- (firstn_skipn (length (snd bv)) Gs) at 1. rewrite msm_app by (rewrite firstn_length; lia). rewrite msm_zeros, vadd_0_r. subst Gs. rewrite firstn_firstn, Nat.min_l by exact Hl. apply msm_firstn_r. lia.
  Qed.
  Lemma opening_H N i bv : (length (snd bv) <= N)%nat -> on_H N i (opening N bv) = 0.
  Proof.
    intros Hl. unfold on_H, opening. destruct (Nat.ltb_spec i N); [|reflexivity]. rewrite coord_mk by lia. cbn [Nat.add nth]. rewrite app_nth2 by (rewrite app_length; rewrite zeros_length; lia). unfold zeros. apply nth_repeat.
  Qed.
  Lemma facts_all dbg pf t t2 y z u x w fl us : v_facts E dbg pf t t2 y z u x w fl us -> exists us', all_challenges E pf t = Some (t2, (y, z, u, x, w), us').
  Proof.
    intros [F1 F2 F3 (try_ & trz & trT & tru & trx & trw & tri & C1 & C2 & C3 & C4 & C5 & C6 & C7) F5 F6].
    pose proof (proj1 (verification_scalars_spec E _ _ _ _) C7) as (us' & tr' & K1 & K2 & K3 & K4 & K5).
    destruct (v_pad_facts t) as (P1 & P2 & P3 & P4 & P5 & P6 & P7). cbv zeta in *. exists us'.
    unfold all_challenges. rewrite P2, P3, P4, F3, C1. cbn [opt_bind]. rewrite C2. cbn [opt_bind].
    rewrite (validate_append _ _ _ _ _ _ C3). cbn [opt_bind]. rewrite C4. cbn [opt_bind]. rewrite C5. cbn [opt_bind].
    rewrite C6. cbn [opt_bind]. rewrite K1. reflexivity.
  Qed.
  Lemma in_size (t : VState V) cd : In cd (v_vec t) -> (snd cd <= v_size t)%nat.
  Proof.
    intros Hin. pose proof (fold_max_all (v_vec t) (v_num t)) as H. rewrite Forall_forall in H. exact (H _ Hin).
  Qed.
  Lemma honest_represented (dlog : V -> F) tr s t dbg rnd pf : (forall P, P = vsmul (dlog P) (pcB pc)) ->
    session E pc g tr s t -> p_def s = [] -> honest s -> gens_wf g -> (gens_capacity g < 2 ^ 32)%nat -> good_proof E dbg rnd pc g s pf ->
    exists N Gs Hs (t2 : VState (FreeV F (2 + (N + N)))) (pf' : R1CSProof (FreeV F (2 + (N + N)))) y z u x w us, share_G g 0 N = Some Gs /\ share_H g 0 N = Some Hs /\ length (ipp_R (pipp pf')) = length (ipp_L (pipp pf')) /\
      next_power_of_two (v_size t2) = N /\ (forall cd i, In cd (v_vec t2) -> on_H N i (fst cd) = 0) /\
      pf = map_proof (free_eval (generators pc Gs Hs)) pf' /\ all_challenges E pf t = Some (map_vstate (free_eval (generators pc Gs Hs)) t2, (y, z, u, x, w), us).
  Proof.
    intros Hdl Hs Hd Hh Hw Hc Hgp. destruct (session_agree _ _ _ _ _ _ Hs) as [_ Ha]. pose proof (ag_def _ _ _ _ Ha) as Hdf. rewrite Hd in Hdf. assert (Hdt : v_def t = []) by (inversion Hdf; reflexivity). clear Hdf.
    destruct (good_tuple E dbg rnd pc g tr s t pf true 0 Hs Hd Hh Hw Hc Hgp) as (vt & Hvt & Hb).
    destruct (verify_reached E pc g true 0 pf t vt Hw Hdt Hvt) as [_ Hcap]. assert (Hok : r1cs_verify E true 0 pf pc g t = Some (Ok tt)) by (unfold r1cs_verify; rewrite Hvt; exact Hb). rewrite Hok in Hcap.
    destruct (Nat.ltb_spec (gens_capacity g) (next_power_of_two (v_size t))) as [|HN]; [discriminate Hcap|]. clear Hcap Hok Hb.
    destruct (v_facts_of_scalars _ _ _ _ _ _ Hvt) as (t2 & y & z & u & x & w & fl & us & Hf). pose proof (vf_size E _ _ _ _ _ _ _ _ _ _ _ Hdt Hf) as Hsz.
    destruct (facts_all _ _ _ _ _ _ _ _ _ _ _ Hf) as (us' & Hall). destruct (challenges_state _ _ _ _ _ _ Hall) as [Hvec _]. rewrite <- Hsz in HN. rewrite (ag_vec _ _ _ _ Ha) in Hvec.
    set (N := next_power_of_two (v_size t2)) in *. destruct Hw as (Gr & Hr & EG & EH & LG & LH).
    assert (HlG : length (firstn N Gr) = N) by (rewrite firstn_length; lia). assert (HlH : length (firstn N Hr) = N) by (rewrite firstn_length; lia).
    assert (SG : share_G g 0 N = Some (firstn N Gr)) by (unfold share_G; rewrite EG; reflexivity). assert (SH : share_H g 0 N = Some (firstn N Hr)) by (unfold share_H; rewrite EH; reflexivity).
    assert (Hdim : forall bv, In bv (p_vec s) -> (length (snd bv) <= N)%nat).
    { intros bv Hin. apply (Nat.le_trans _ (v_size t2)); [|apply next_power_of_two_ge]. refine (in_size t2 (vec_commitment pc g (fst bv) (snd bv), length (snd bv)) _). rewrite Hvec. apply in_map_iff. exists bv. split; [reflexivity|exact Hin]. }
    set (rp := fun P => on_line N (dlog P) : FreeV F (2 + (N + N))).
    assert (Hrp : forall P, free_eval (generators pc (firstn N Gr) (firstn N Hr)) (rp P) = P) by (intros P; unfold rp; rewrite on_line_eval by assumption; symmetry; apply Hdl).
    assert (Hrl : forall l, map (free_eval (generators pc (firstn N Gr) (firstn N Hr))) (map rp l) = l) by (intros l; rewrite map_map; transitivity (map (fun P : V => P) l); [apply map_ext; exact Hrp|apply map_id]).
    exists N, (firstn N Gr), (firstn N Hr), (mkV (V := FreeV F (2 + (N + N))) (v_tr t2) (v_cs t2) (map (fun bv => (opening N bv, length (snd bv))) (p_vec s)) (v_num t2) (map rp (v_V t2)) (v_def t2) (v_pend t2)), (map_proof rp pf), y, z, u, x, w, us'.
    assert (Ht2 : map_vstate (free_eval (generators pc (firstn N Gr) (firstn N Hr))) (mkV (V := FreeV F (2 + (N + N))) (v_tr t2) (v_cs t2) (map (fun bv => (opening N bv, length (snd bv))) (p_vec s)) (v_num t2) (map rp (v_V t2)) (v_def t2) (v_pend t2)) = t2).
    { unfold map_vstate. cbn [v_tr v_cs v_vec v_num v_V v_def v_pend]. rewrite Hrl, map_map. destruct t2 as [a1 a2 a3 a4 a5 a6 a7]. cbn [v_tr v_cs v_vec v_num v_V v_def v_pend] in *. f_equal. rewrite Hvec. apply map_ext_in. intros bv Hin. cbn [fst snd].
      rewrite opening_eval by (try assumption; apply Hdim; exact Hin). reflexivity. }
    split; [exact SG|]. split; [exact SH|]. split.
    { cbn [map_proof pipp ipp_R ipp_L]. rewrite !map_length. destruct Hgp as ((trf & Hp) & _). destruct (prove_run E pc g _ _ _ _ _ Hp) as (s2 & ? & ? & ? & ? & ? & ? & ? & ? & ? & ? & ? & ? & ? & ? & ? & ? & ? & ? & ? & ? & ? & R).
      destruct (ipp_create_spec E _ _ _ _ _ _ _ _ _ _ (rn_ipp _ _ _ _ _ _ _ _ _ _ _ _ _ _ _ _ _ _ _ _ _ _ _ _ _ _ _ _ _ _ R)) as (k & ? & _ & _ & _ & _ & _ & _ & _ & K1 & K2 & _). congruence. }
    split; [rewrite <- (map_vstate_size _ (free_eval (generators pc (firstn N Gr) (firstn N Hr)))), Ht2; reflexivity|]. split.
    { cbn [v_vec]. intros cd i Hin. apply in_map_iff in Hin as (bv & <- & Hin). cbn [fst]. apply opening_H, Hdim, Hin. }
    split; [|rewrite Ht2; exact Hall]. destruct pf as [p1 p2 p3 p4 p5 p6 T tx txb eb [Ls Rs a b]]. unfold map_proof. cbn [A_I1 A_O1 S1 A_I2 A_O2 S2 pT pt_x pt_x_blinding pe_blinding pipp ipp_L ipp_R ipp_a ipp_b]. rewrite !Hrp, !Hrl. reflexivity.
  Qed.
  Lemma div_back (a b : F) : b <> 0 -> a = a * finv b * b.
  Proof. intros Hb. field. exact Hb. Qed.
End Honest.

(** The pour of [C56_demo], which spends coins of values 30 and 12 and mints coins of values 40
    and 2: all hypotheses hold except that the challenges are lucky (points of the toy curves are
    their discrete logarithms). *)
From Verif Require Import Toy ToyCurve PropsGadgets PropsRerand PropsSelRerand PropsSelBatch.
(* test data or vocabulary of statements, no code modelled *)
Definition dlog0 (P : TC0) : PF163 := fmul (f := PF163) P (finv (f := PF163) (pcB toy_pcg)).
Lemma dlog0_spec (P : TC0) : P = vsmul (dlog0 P) (pcB toy_pcg).
Proof.
  assert (Hn : (pcB toy_pcg : PF163) <> 0) by (intros E; apply (f_equal (fun x : PF163 => feqb x 0)) in E; vm_compute in E; discriminate E).
  exact (div_back (F := PF163) P (pcB toy_pcg) Hn).
Qed.
Example C72_conservation_demo : exists (prm : SRParams TC0 TC1) t i0 i1 s0' s1' path0 path1 c0 c1 p0 p1 t0, t_height t = 3%nat /\
    pour_circuits EE0 EE1 ec0 ec1 toy_schnorr ec1 sc139 toy_sha true true 2 toy_pcg toy_pcg1 prm t i0 i1 (toy_m0 40) (toy_m1 2) (p_new toy_ro) (p_new toy_ro) = Some (s0', s1', (path0, path1, c0, c1)) /\
    Nat.even (length (pa_even path0) + length (pa_even path1)) = true /\ gens_wf pos0 /\ verification_commitments t path0 = Some p0 /\ verification_commitments t path1 = Some p1 /\
    forall dbg0 rnd0 pf0 dbg1 rnd1 pf1, good_proof EE0 dbg0 rnd0 toy_pcg pos0 s0' pf0 -> good_proof EE1 dbg1 rnd1 toy_pcg1 pos1 s1' pf1 ->
    let po := mkPour (P0 := TC0) (P1 := TC1) (C := TC1) pf0 pf1 path0 path1 (sp_pk i0) (sp_pk i1) c0 c1 in
    pour_even_circuit EE0 ec1 ec1 toy_sha true 2 prm t po p0 p1 (v_new toy_ro) = Some t0 /\
    (forall rr0 rr1, exists vt0 vt1, pour_verify EE0 EE1 ec0 ec1 ec1 toy_sha true 2 prm t toy_ro rr0 rr1 po = Some (vt0, vt1) /\ batch_verify [vt0] [] toy_pcg pos0 = Some (Ok tt)) /\
    exists N Gs Hs (t2 : VState (FreeV PF163 (2 + (N + N)))) (pf' : R1CSProof (FreeV PF163 (2 + (N + N)))) y z u x w us, share_G pos0 0 N = Some Gs /\ share_H pos0 0 N = Some Hs /\
      length (ipp_R (pipp pf')) = length (ipp_L (pipp pf')) /\ next_power_of_two (v_size t2) = N /\ (forall cd i, In cd (v_vec t2) -> on_H N i (fst cd) = 0) /\
      po_even po = map_proof (free_eval (V := TC0) (generators toy_pcg Gs Hs)) pf' /\ all_challenges EE0 (po_even po) t0 = Some (map_vstate (free_eval (V := TC0) (generators toy_pcg Gs Hs)) t2, (y, z, u, x, w), us).
Proof.
  destruct purse_demo as (prm & t & set & i0 & i1 & H0 & H1 & A0 & A1 & Ht & Eh & I0 & I1 & V0 & V1 & M0 & M1 & _).
  destruct (sl_new_good _ _ _ _ H0) as (Hg0 & Eb0 & Ep0 & _), (sl_new_good _ _ _ _ H1) as (Hg1 & Eb1 & Ep1 & _).
  assert (Hc : (N.of_nat (2 ^ t_height t) < 2 ^ 64)%N) by (rewrite Eh; vm_compute; reflexivity). assert (Hh : t_height t <> 0%nat) by (rewrite Eh; discriminate).
  assert (Hb : (mi_value (toy_m0 40) + mi_value (toy_m1 2) = co_value (sp_coin i0) + co_value (sp_coin i1))%N) by (rewrite V0, V1; reflexivity).
  destruct (pour_total EE0 EE1 ec0 ec1 toy_schnorr ec1 sc139 toy_sha true true 2 1 prm set 6 None t i0 i1 (toy_m0 40) (toy_m1 2) (p_new toy_ro) (p_new toy_ro) Hg0 Hg1 A0 A1 Ht Hc ltac:(lia) Hh I0 I1 M0 M1 Hb (honest_new _) (honest_new _)) as (s0' & s1' & [[[q0 q1] c0] c1] & R & Q0 & Q1 & D0 & D1).
  destruct (pour_run EE0 EE1 ec0 ec1 toy_schnorr ec1 sc139 toy_sha true true 2 1 prm set 6 None t i0 i1 (toy_m0 40) (toy_m1 2) toy_ro toy_ro _ _ _ _ _ _ _ _ _ _ Hg0 Hg1 Ht Hc ltac:(lia) Hh
    (honest_tag _ _ _ _ _ _ _ _ _ _ I0) (honest_tag _ _ _ _ _ _ _ _ _ _ I1) (ses_new EE0 _ _ toy_ro) (ses_new EE1 _ _ toy_ro) R) as (p0 & p1 & t0 & t1 & Hp0 & Hp1 & L0 & L1 & Hv & _ & Hs & _).
  exists prm, t, i0, i1, s0', s1', q0, q1, c0, c1, p0, p1, t0. split; [exact Eh|]. rewrite <- Ep0, <- Ep1. split; [exact R|]. rewrite <- Eb0, <- Eb1.
  split.
  { assert (Hq : length (pa_even q0) = length (pa_even q1)).
    { clear - Hp0 Hp1 L0 L1. pose proof (completed_length _ _ _ Hp0) as C0. pose proof (completed_length _ _ _ Hp1) as C1. unfold verification_commitments, guard in Hp0, Hp1. destruct t as [ct|ct].
      - destruct (Nat.eqb_spec (length (pa_even q0) + 1) (length (pa_odd q0))); [|discriminate Hp0]. destruct (Nat.eqb_spec (length (pa_even q1) + 1) (length (pa_odd q1))); [|discriminate Hp1]. lia.
      - destruct (Nat.eqb_spec (length (pa_even q0)) (length (pa_odd q0))); [|discriminate Hp0]. destruct (Nat.eqb_spec (length (pa_even q1)) (length (pa_odd q1))); [|discriminate Hp1]. lia. }
    rewrite Hq. replace (length (pa_even q1) + length (pa_even q1))%nat with (2 * length (pa_even q1))%nat by lia. apply Nat.even_spec. exists (length (pa_even q1)). reflexivity. }
  split; [rewrite Eb0; apply gens_wf_new|]. split; [exact Hp0|]. split; [exact Hp1|].
  intros dbg0 rnd0 pf0 dbg1 rnd1 pf1 G0 G1. cbv zeta. split; [rewrite pour_even_dim; exact Hv|]. split.
  - intros rr0 rr1. destruct (pour_accepted EE0 EE1 ec0 ec1 toy_schnorr ec1 sc139 toy_sha true true 2 1 prm set 6 None t i0 i1 (toy_m0 40) (toy_m1 2) toy_ro _ _ _ _ _ _ dbg0 rnd0 pf0 dbg1 rnd1 pf1 Hg0 Hg1 Ht Hc ltac:(lia) Hh ltac:(lia) ltac:(left; lia)
      (honest_tag _ _ _ _ _ _ _ _ _ _ I0) (honest_tag _ _ _ _ _ _ _ _ _ _ I1) R Q0 Q1 D0 D1 ltac:(rewrite Eb0; apply gens_wf_new) ltac:(rewrite Eb0; exact cap_256) ltac:(rewrite Eb1; apply gens_wf_new) ltac:(rewrite Eb1; exact cap_256) G0 G1 true rr0 rr1) as (vt0 & vt1 & K0 & K1 & _).
    exists vt0, vt1. split; assumption.
  - assert (Hdl : forall P : TC0, P = vsmul (dlog0 P) (pcB (sl_pc (even_p prm)))) by (rewrite Ep0; exact dlog0_spec).
    destruct (honest_represented EE0 _ _ dlog0 _ _ _ _ _ _ Hdl Hs D0 Q0 ltac:(rewrite Eb0; apply gens_wf_new) ltac:(rewrite Eb0; exact cap_256) G0) as (N & Gs & Hs' & t2 & pf' & y & z & u & x & w & us & K).
    exists N, Gs, Hs', t2, pf', y, z, u, x, w, us. exact K.
Qed.
