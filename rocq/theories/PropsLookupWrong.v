(** * C87: the lookup of the test with values that are not in the table *)
From Verif Require Import LookupClient ShuffleProofs CSProofs CSLogic CSMore UtilProofs GadgetProofs RerandProofs R1CSSpec R1CSProofs R1CSMain R1CSVerif R1CSMore R1CSTotal Lockstep SelSim CircuitSize FlatProofs SoundSpec SoundCount PropsGadgets PropsR1CS PropsSound PropsClients PropsShuffle PropsVecClients PropsLookupClient Toy.
Local Open Scope F_scope.

(** A prover (no code modelled) that follows the test but allocates values [x], [y] of its own. *)
Definition lookup_values {F : Field} {V : VSpace F} (E : TrEnv V) (dbg : bool) (rnd : PRand F) (pc : PedersenGens V) (g : BPGens V) (u v : list F) (x y : F) (index : nat) : option (Res (R1CSProof V)) :=
  do (s, _) <- prun E (lookup_circuit u v (Some (x, y)) (Some index)) (p_new (test_transcript "Lookup"));
  dor r <- r1cs_prove E dbg rnd pc g s; Some (Ok (fst r)).

Section Wrong.
  Context {F : Field} {V : VSpace F} (E : TrEnv V) (pc : PedersenGens V) (g : BPGens V).
  Add Field FFlwr : (f_th F).
  Let tr0 := test_transcript "Lookup".

  Lemma two_allocs_honest (x y : F) (k : Var -> Var -> Prog F unit) : exists s2, honest s2 /\ issued s2 (MulL 0) /\ issued s2 (MulR 0) /\ p_asg s2 (MulL 0) = x /\ p_asg s2 (MulR 0) = y /\
    prun E (palloc (Some x) (fun xv => palloc (Some y) (fun yv => k xv yv))) (p_new tr0) = prun E (k (MulL 0) (MulR 0)) s2.
  Proof.
    eexists. split; [|split; [|split; [|split; [|split; [|reflexivity]]]]]; try reflexivity.
    - split; [|constructor]. split; [reflexivity|]. split; [reflexivity|]. split; [intros [|[|i]]; cbn; ring|discriminate].
    - split; discriminate.
    - split; discriminate.
  Qed.
  Lemma frame_of_prun {A} (p p' : Prog F A) s s' a : simg eq p p' -> prun E p s = Some (s', a) -> p_def s' = p_def s.
  Proof. intros H R. exact (simg_def E _ _ _ H _ _ _ R). Qed.
  (** the value of the circuit for arbitrary values *)
  Lemma lookup_wrong_session u v x y d : (d < 8)%nat -> exists s t, prun E (lookup_circuit u v (Some (x, y)) (Some d)) (p_new tr0) = Some (s, tt) /\ p_def s = [] /\ p_vec s = [] /\
    lookup_statement E u v = Some t /\ session E pc g tr0 s t /\ p_size s = 7%nat /\ Forall (Forall (fun c => p_var s (fst c) <> None)) (p_cs s) /\
    forall z, z <> 0 -> (batched_constraints (p_asg s) z (p_cs s) = 0 <-> (nth d u 0 - x) + z * (nth d v 0 - y) = 0).
  Proof.
    intros Hd. destruct (two_allocs_honest x y (lookup_rest u v (Some d))) as (s2 & Hh & IL & IR & VL & VR & Eq).
    destruct (C30_lookup_complete F V E [u; v] d s2 Hh Hd) as (s1 & outs & R1 & Hh1 & _ & Hk & Hok & Hval).
    destruct outs as [|a [|b [|? ?]]]; try discriminate Hval. cbn [map] in Hval. injection Hval as Ha Hb. apply Forall_cons_iff in Hok as [Oa Ob]. apply Forall_inv in Ob.
    set (s := p_constrain (p_constrain s1 (lc_sub a (lc_var (MulL 0)))) (lc_sub b (lc_var (MulR 0)))).
    assert (R : prun E (lookup_circuit u v (Some (x, y)) (Some d)) (p_new tr0) = Some (s, tt)).
    { rewrite lookup_circuit_rest. cbn [option_map fst snd]. rewrite Eq. unfold lookup_rest. rewrite prun_bind, R1. reflexivity. }
    assert (S0 : session E pc g tr0 (p_new tr0) (v_new tr0)) by apply ses_new. destruct (session_agree E pc g tr0 _ _ S0) as [Hg Hag0].
    pose proof (simg_same _ _ (lookup_circuit_same u v (x, y) d)) as Hsg.
    destruct (lockstep_prun E pc g _ _ _ _ s tt Hsg Hg Hag0 R) as (t & Rv & Hag).
    pose proof (ses_gadget _ _ _ _ _ _ _ _ _ _ _ _ _ S0 Hsg R Rv) as Hs.
    destruct (lookup_session E pc g u v d Hd) as (_ & t' & _ & _ & _ & _ & _ & Hst & Rv' & _ & Hsz & Hvec).
    fold tr0 in Rv'. rewrite Rv in Rv'. apply Some_inj in Rv'. injection Rv' as <-.
    destruct (session_size E pc g _ s t Hs) as [Es El]. unfold dims in El. rewrite Hvec in El. cbn [map length] in El.
    destruct (Hk _ IL) as [IL1 AL], (Hk _ IR) as [IR1 AR]. destruct Hh1 as [Hg1 Hcs].
    exists s, t. split; [exact R|]. split; [exact (frame_of_prun _ _ _ _ _ (lookup_circuit_same u v (x, y) d) R)|].
    split; [destruct (p_vec s); [reflexivity|discriminate El]|]. split; [exact Hst|]. split; [exact Hs|]. split; [rewrite Es; exact Hsz|].
    assert (OA : lc_ok (issued s1) (lc_sub a (lc_var (MulL 0)))) by (apply lc_ok_sub_lc; [exact Oa|apply lc_ok_var, IL1]).
    assert (OB : lc_ok (issued s1) (lc_sub b (lc_var (MulR 0)))) by (apply lc_ok_sub_lc; [exact Ob|apply lc_ok_var, IR1]).
    split.
    - unfold s. cbn [p_constrain p_cs]. rewrite <- app_assoc. apply Forall_app. split.
      + eapply Forall_impl; [|exact Hcs]. intros lc [Hlc _]. eapply Forall_impl; [|exact Hlc]. intros c [Hc _]. exact Hc.
      + cbn [app]. constructor; [|constructor; [|constructor]]; (eapply Forall_impl; [|eassumption]); intros c [Hc _]; exact Hc.
    - intros z Hz. change (p_asg s) with (p_asg s1). unfold s. cbn [p_constrain p_cs]. rewrite <- app_assoc. cbn [app].
      rewrite batched_constraints_peval, map_app, peval_app, peval_zeros, map_length.
      2: { apply Forall_map. eapply Forall_impl; [|exact Hcs]. intros lc [_ H]. exact H. }
      cbn [map peval]. rewrite !lc_val_sub, !lc_val_var, Ha, Hb, AL, AR, VL, VR. set (k := fpow z (length (p_cs s1))).
      assert (Hk0 : k <> 0) by (apply fpow_neq_0; exact Hz). split.
      + intros H. assert (H' : z * (k * (nth d u 0 - x + z * (nth d v 0 - y))) = 0) by (etransitivity; [|exact H]; ring).
        apply fmul_eq_0 in H' as [H'|H']; [contradiction|]. apply fmul_eq_0 in H' as [H'|H']; [contradiction|exact H'].
      + intros H. transitivity (z * (k * (nth d u 0 - x + z * (nth d v 0 - y)))); [ring|rewrite H; ring].
  Qed.
  Lemma one_root (a b : F) : a <> 0 \/ b <> 0 -> at_most 1 (fun z => a + z * b = 0).
  Proof.
    intros Hab [|z1 [|z2 l]] Hn Hf; cbn [length]; [lia|lia|]. exfalso. apply Forall_cons_iff in Hf as [H1 Hf]. apply Forall_inv in Hf as H2.
    assert (H : (z1 - z2) * b = 0) by (transitivity ((a + z1 * b) - (a + z2 * b)); [ring|rewrite H1, H2; ring]).
    apply fmul_eq_0 in H as [H|H].
    - apply NoDup_cons_iff in Hn as [Hn _]. apply Hn. left. symmetry. apply fsub_0_iff. exact H.
    - rewrite H in H1. destruct Hab as [Ha|Hb]; [|contradiction]. apply Ha. rewrite <- H1. ring.
  Qed.
End Wrong.

(** The prover of the repository with values [x], [y] that are not the column of its index
    makes proofs too.  They are refused, unless [z] is one value that the table, the index and
    the values determine (the scalar of the verifier not zero, proof points not the identity). *)
Theorem C87_lookup_rejects : forall (F : Field) (V : VSpace F) (E : TrEnv V) pc g (u v : list F) (x y : F) index,
  gens_wf g -> (8 <= gens_capacity g < 2 ^ 32)%nat -> pcB pc <> v0 ->
  (forall tr lb, exists c tr', challenge_scalar E tr lb = Some (c, tr') /\ c <> 0) -> (index < 8)%nat ->
  x <> nth index u 0 \/ y <> nth index v 0 ->
  exists t Unlucky, lookup_statement E u v = Some t /\ at_most 1 Unlucky /\
  forall dbg rnd, exists pf, lookup_values E dbg rnd pc g u v x y index = Some (Ok pf) /\
    (Forall (fun P => P <> v0) (validated_points (op_degree_of 0) pf) -> exists t2 yc z xc, r1cs_challenges E pf t = Some (t2, yc, z, xc) /\
     forall dbg' rr, rr <> 0 -> (Unlucky z -> lookup_verify E dbg' rr pf pc g u v = Some (Ok tt)) /\ (~ Unlucky z -> lookup_verify E dbg' rr pf pc g u v = Some (Err VerificationError))).
Proof.
  intros F V E pc g u v x y d Hw [Hc1 Hc] HB Hch Hd Hne.
  destruct (lookup_wrong_session E pc g u v x y d Hd) as (s & t & R & Hdef & Hvec & Hst & Hs & Hsz & Hcs & Hb).
  exists t, (fun z => (nth d u 0 - x) + z * (nth d v 0 - y) = 0). split; [exact Hst|]. split.
  { apply one_root. destruct Hne as [H|H]; [left|right]; intros H0; apply (proj1 (fsub_0_iff _ _)) in H0; apply H; symmetry; exact H0. }
  intros dbg rnd. destruct (C08_prove_total F V E pc g _ _ _ dbg rnd Hs Hdef Hw Hch) as (pf & trf & Hpf); [rewrite Hvec; cbn; lia|rewrite Hsz; exact Hc1|exact Hcs|].
  exists pf. split; [unfold lookup_values; rewrite R; cbn [opt_bind]; rewrite Hpf; reflexivity|]. intros Hnz.
  destruct (C10_exact F V E pc g _ _ _ dbg rnd pf trf Hs Hdef Hw Hc HB Hpf) as (t2 & yc & z & xc & Hcha & Hx); [rewrite Hvec; exact Hnz|].
  exists t2, yc, z, xc. split; [exact Hcha|]. destruct (challenges_nonzero E pf _ t2 yc z xc Hch Hcha) as [Hz0 Hx0]. intros dbg' rr Hrr.
  destruct (Hx dbg' rr) as [Hiff Hdec]. clear Hx. rewrite (Hb z Hz0) in Hiff. unfold lookup_verify. rewrite Hst. cbn [opt_bind]. split.
  - intros H. apply Hiff. auto.
  - intros H. destruct Hdec as [Hok|He]; [|exact He]. apply Hiff in Hok. destruct Hok as [H0|[H0|H0]]; contradiction.
Qed.
Print Assumptions C87_lookup_rejects.

(** ** Examples *)
(* test helper, no code modelled: are the points not at infinity, and the verdict *)
Definition look_wrong (x y : Z) : option (bool * option (Res unit)) :=
  match lookup_values sh_env true rnd101 pc101 g101 look_u look_v (z101 x) (z101 y) 7 with
  | Some (Ok pf) => Some (forallb (fun P => negb (veqb P v0)) (validated_points (op_degree_of 0) pf), lookup_verify sh_env true (z101 7) pf pc101 g101 look_u look_v)
  | _ => None
  end.
(** The column of the index 7 is (83, 8).  With the challenge 5 the values (83, 9) are refused,
    and the values (88, 7) are the unlucky case. *)
Example C87_wrong_demo : pcB pc101 <> v0 /\ z101 9 <> nth 7 look_v 0 /\
  look_wrong 83 8 = Some (true, Some (Ok tt)) /\ look_wrong 83 9 = Some (true, Some (Err VerificationError)) /\ look_wrong 88 7 = Some (true, Some (Ok tt)).
Proof. split; [discriminate|]. split; [discriminate|]. split; [vm_compute; reflexivity|]. split; vm_compute; reflexivity. Qed.
