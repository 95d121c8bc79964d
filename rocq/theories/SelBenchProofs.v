(** * Proofs about the membership benches *)
From Verif Require Export SelBench AccProofs.
From Verif Require Import CSProofs UtilProofs Lockstep CSMore R1CS R1CSSpec R1CSCore R1CSProofs R1CSVerif R1CSBatch R1CSMain IPPProofs CSLogic GadgetProofs TreeProofs SelSim CircuitSize R1CSMisc PropsSize PropsGadgets PropsSingle PropsRerand PropsSelRerand.
Local Open Scope F_scope.

Lemma pads_differ a b : (2 <= a)%nat -> (2 * a - 1 <= b)%nat -> next_power_of_two a <> next_power_of_two b.
Proof.
  intros Ha Hb E. pose proof (next_power_of_two_ge b) as Hg. rewrite <- E in Hg. unfold next_power_of_two in Hg. destruct (Nat.log2_up_spec a ltac:(lia)) as [Hlo _].
  destruct (Nat.log2_up a) as [|k] eqn:Ek; [cbn in Hg; lia|]. cbn [Nat.pred] in Hlo. rewrite Nat.pow_succ_r' in Hg. lia.
Qed.
(** An accepted proof fixes the size of the circuit up to padding. *)
Lemma tuple_size {F : Field} {V : VSpace F} (E : TrEnv V) dbg rr pf (t : VState V) vt : v_def t = [] -> v_scalars_and_points E dbg rr pf t = Some (Ok vt) -> next_power_of_two (v_size t) = (2 ^ length (ipp_L (pipp pf)))%nat.
Proof.
  intros Hd Hv. destruct (v_facts_of_scalars _ _ _ _ _ _ Hv) as (t2 & y & z & u & x & w & fl & us & Hf). rewrite <- (vf_size E _ _ _ _ _ _ _ _ _ _ _ Hd Hf).
  destruct Hf as [_ _ _ (try_ & trz & trT & tru & trx & trw & tri & _ & _ & _ & _ & _ & _ & H) _ _]. apply verification_scalars_spec in H as (us' & tr' & _ & _ & H & _). exact H.
Qed.

Section Naive.
  Context {F0 F1 : PField} {P0 : SWCurve F1 F0} {P1 : SWCurve F0 F1}.
  Variables (E0 : TrEnv P0) (E1 : TrEnv P1) (enc0 : P0 -> bytes) (enc1 : P1 -> bytes).

  (** A job: a leaf of the tree and scalars with which the nodes of its path can be
      re-randomized. *)
  Definition job_ok (oc : bool) (L : nat) (prm : SRParams P0 P1) (set : list P0) (t : CurveTree P0 P1) (job : N * (nat -> F1) * (nat -> F0)) : Prop :=
    let '(index, os, es) := job in exists i leaf evens odds, index = N.of_nat i /\ nth_error set i = Some leaf /\ tree_witness oc L t index 0 prm = Some (evens, odds) /\
      (forall k w, nth_error evens k = Some w -> admissible (odd_p prm) (w_child w) (os k)) /\ (forall k w, nth_error odds k = Some w -> admissible (even_p prm) (w_child w) (es k)).
  (** The path shows a re-randomization of the leaf of the job. *)
  Definition shows (prm : SRParams P0 P1) (set : list P0) (job : N * (nat -> F1) * (nat -> F0)) (path : Path P0 P1) : Prop :=
    let '(index, os, es) := job in exists leaf r, nth_error set (N.to_nat index) = Some leaf /\ pa_selected path = vadd leaf (vsmul r (pcB_blinding (sl_pc (even_p prm)))).

  Lemma naive_walk oc L M prm set fuel height t :
    sl_good (even_p prm) -> sl_good (odd_p prm) -> sw_a P0 = 0 -> sw_a P1 = 0 ->
    from_set fuel L M prm set height = TOk t -> (N.of_nat (L ^ t_height t) < 2 ^ 64)%N -> (0 < M)%nat -> t_height t <> 0%nat ->
    forall jobs tr0 tr1 s0 s1 (t0 : VState P0) (t1 : VState P1), Forall (job_ok oc L prm set t) jobs -> honest s0 -> honest s1 -> p_def s0 = [] -> p_def s1 = [] ->
    session E0 (sl_pc (even_p prm)) (sl_bp (even_p prm)) tr0 s0 t0 -> session E1 (sl_pc (odd_p prm)) (sl_bp (odd_p prm)) tr1 s1 t1 ->
    exists s0' s1' paths srvs t0' t1', naive_circuits E0 E1 enc0 enc1 oc L prm t jobs s0 s1 = Some (s0', s1', paths) /\ honest s0' /\ honest s1' /\ p_def s0' = [] /\ p_def s1' = [] /\
      all_some (map (verification_commitments t) paths) = Some srvs /\ naive_even E0 enc1 L prm t srvs t0 = Some t0' /\ naive_odd E1 enc0 L prm t srvs t1 = Some t1' /\
      session E0 (sl_pc (even_p prm)) (sl_bp (even_p prm)) tr0 s0' t0' /\ session E1 (sl_pc (odd_p prm)) (sl_bp (odd_p prm)) tr1 s1' t1' /\
      Forall2 (shows prm set) jobs paths /\ Forall (fun srv => length (pa_odd srv) = ((t_height t + 1) / 2)%nat) srvs.
  Proof.
    intros Hg0 Hg1 Ha0 Ha1 Ht Hc HM Hh. induction jobs as [|[[index os] es] jobs IH]; intros tr0 tr1 s0 s1 t0 t1 HJ Hh0 Hh1 Hd0 Hd1 S0 S1.
    - exists s0, s1, [], [], t0, t1. cbn. repeat (split; [solve [eauto]|]). constructor.
    - apply Forall_cons_iff in HJ as [(i & leaf & evens & odds & -> & Hleaf & Hw & Aos & Aes) HJ].
      destruct (leaf_of_index oc L M prm set fuel height t i leaf evens odds Ht Hc HM Hleaf Hw) as (root & Hr & Ho).
      destruct (sr_total E0 E1 enc0 enc1 L prm root (t_height t) evens odds leaf os es s0 s1 Hg0 Hg1 Ha0 Ha1 Ho Aos Aes Hh0 Hh1) as (u0 & u1 & p & r & Hp & Hu0 & Hu1 & _ & _ & Du0 & Du1).
      destruct (sr_lockstep E0 E1 enc0 enc1 true L prm t root (t_height t) evens odds leaf os es tr0 tr1 s0 s1 t0 t1 u0 u1 p r Hg0 Hg1 Hr Ho Hh (tree_witness_root _ _ _ _ _ _ _ _ Hw Hh) ltac:(reflexivity) S0 S1 Hp) as (v0' & v1' & Hv & T0 & T1 & Hsel).
      pose proof (C49_debug_length _ _ _ _ _ _ _ _ _ _ _ _ _ _ _ Hv) as Hlen.
      destruct (sr_verify_inv E0 E1 enc0 enc1 _ _ _ _ _ _ _ _ _ _ Hv) as (srv & V1 & V2 & V3 & _).
      destruct (IH tr0 tr1 u0 u1 v0' v1' HJ Hu0 Hu1 ltac:(congruence) ltac:(congruence) T0 T1) as (s0' & s1' & paths & srvs & t0' & t1' & HC & Hh0' & Hh1' & Hd0' & Hd1' & Hs & He & Hod & S0' & S1' & Hsh & Hl).
      exists s0', s1', (p :: paths), (srv :: srvs), t0', t1'. cbn [naive_circuits map all_some naive_even naive_odd]. unfold tree_prove. rewrite Hw. cbn [opt_bind fst snd]. rewrite Hp. cbn [opt_bind]. rewrite HC. cbn [opt_bind].
      split; [reflexivity|]. repeat (split; [assumption|]). rewrite V1. cbn [opt_bind]. rewrite Hs. cbn [opt_bind]. split; [reflexivity|]. rewrite V2, V3. cbn [opt_bind]. repeat (split; [assumption|]).
      split; constructor; try assumption.
      + exists leaf, r. rewrite Nat2N.id. split; assumption.
      + exact (proj1 (proj2 (completed_counts _ _ _ _ V1 (eq_sym Hlen)))).
  Qed.

  Lemma naive_odd_size L prm (t : CurveTree P0 P1) k : root_width L t -> countable (even_p prm) -> forall srvs (t1 t1' : VState P1), Forall (fun srv => length (pa_odd srv) = k) srvs -> naive_odd E1 enc0 L prm t srvs t1 = Some t1' ->
    (2 * v_num t1' + spare t1 = 2 * v_num t1 + spare t1' + length srvs * (k * level_halves L (windows (S := F0))))%nat.
  Proof.
    intros Hw Hc. induction srvs as [|srv srvs IH]; intros t1 t1' Hk H; cbn [naive_odd length] in *.
    - apply Some_inj in H. subst. lia.
    - apply Forall_cons_iff in Hk as [Hk1 Hk]. destruct (odd_gadget E1 enc0 L prm t srv t1) as [u|] eqn:Eo; [|discriminate H]. cbn [opt_bind] in H. pose proof (IH _ _ Hk H) as H2. pose proof (odd_gadget_size E1 enc0 _ _ _ _ _ _ Hw Hc Eo) as H1.
      rewrite Hk1 in H1. lia.
  Qed.
End Naive.
