(** * Properties of the select-and-rerandomize gadgets over whole paths: C47, C48, C49 *)
From Verif Require Export SelPath PropsR1CS.
From Verif Require Import CSProofs UtilProofs Lockstep CSMore R1CS R1CSSpec R1CSProofs R1CSMain Toy ToyCurve PropsGadgets PropsRerand.
Local Open Scope F_scope.

(** Prover and verifier have the same constraints, transcript, number of multipliers
    and vector commitments. *)
Definition same_circuit {F : Field} {V : VSpace F} (pc : PedersenGens V) (g : BPGens V) (s : PState F) (t : VState V) : Prop :=
  p_cs s = v_cs t /\ p_tr s = v_tr t /\ length (p_aL s) = v_num t /\
  v_vec t = map (fun bv => (vec_commitment pc g (fst bv) (snd bv), length (snd bv))) (p_vec s).
Lemma session_same {F : Field} {V : VSpace F} (E : TrEnv V) pc g tr s t : session E pc g tr s t -> same_circuit pc g s t.
Proof. intros H. apply session_agree in H as [_ [A1 A2 A3 A4 A5 A6 A7 A8 A9]]. split; [exact A2|]. split; [exact A1|]. split; [exact A3|exact A8]. Qed.

(** What a successful run of the prover on a tree says about the tree. *)
Lemma tree_prove_opens {F0 F1 : PField} {P0 : SWCurve F1 F0} {P1 : SWCurve F0 F1} (L M : nat) (prm : SRParams P0 P1) set fuel height t oc index ti evens odds :
  from_set fuel L M prm set height = TOk t -> (N.of_nat (L ^ t_height t) < 2 ^ 64)%N -> (ti < M)%nat -> tree_witness oc L t index ti prm = Some (evens, odds) ->
  exists leaf root, nth_error set (N.to_nat (index mod N.of_nat (L ^ t_height t))) = Some leaf /\ t_commitment t ti = Some root /\ t_opens L ti (t_height t) prm root evens odds leaf.
Proof.
  intros Ht Hc Hti Hw. destruct (from_set_ok _ _ _ _ _ _ _ Ht) as (HL & d & Hd & _). rewrite (tree_ok_height _ _ _ _ _ _ Hd) in *.
  pose proof (tree_witness_spec oc L M ti d prm set t index HL Hti Hd) as Hs. rewrite (tree_ok_walk oc L M prm d set t _ HL Hc Hd) in Hs.
  destruct (nth_error set _) as [leaf|]; [|rewrite Hs in Hw; discriminate Hw]. destruct Hs as (evens' & odds' & root & Hw' & Hr & Ho & _).
  rewrite Hw in Hw'. apply Some_inj, pair_inj in Hw' as [<- <-]. eauto.
Qed.

(** ** C47: prover and verifier of a membership proof build identical circuits *)
(** For trees of height at least 1 and tree index 0; see the refutations below for the rest. *)
Theorem C47_same_circuits_partial : forall (F0 F1 : PField) (P0 : SWCurve F1 F0) (P1 : SWCurve F0 F1) (E0 : TrEnv P0) (E1 : TrEnv P1) (enc0 : P0 -> bytes) (enc1 : P1 -> bytes)
    bp0 pc0 delta0 bp1 pc1 delta1 (prm : SRParams P0 P1) (L M : nat) (set : list P0) fuel height t oc dbg index os es tr0 tr1 s0 s1 (t0 : VState P0) (t1 : VState P1) s0' s1' p r,
  sl_new bp0 pc0 delta0 = Some (even_p prm) -> sl_new bp1 pc1 delta1 = Some (odd_p prm) ->
  from_set fuel L M prm set height = TOk t -> (N.of_nat (L ^ t_height t) < 2 ^ 64)%N -> (0 < M)%nat -> t_height t <> 0%nat ->
  session E0 pc0 bp0 tr0 s0 t0 -> session E1 pc1 bp1 tr1 s1 t1 ->
  tree_prove E0 E1 enc0 enc1 oc L t index 0 pc0 pc1 prm os es s0 s1 = Some (s0', s1', (p, r)) ->
  exists (t0' : VState P0) (t1' : VState P1) leaf, sr_verify E0 E1 enc0 enc1 dbg L prm t p t0 t1 = Some (t0', t1', pa_selected p) /\
    same_circuit pc0 bp0 s0' t0' /\ same_circuit pc1 bp1 s1' t1' /\
    nth_error set (N.to_nat (index mod N.of_nat (L ^ t_height t))) = Some leaf /\ pa_selected p = vadd leaf (vsmul r (pcB_blinding pc0)).
Proof.
  intros F0 F1 P0 P1 E0 E1 enc0 enc1 bp0 pc0 delta0 bp1 pc1 delta1 prm L M set fuel height t oc dbg index os es tr0 tr1 s0 s1 t0 t1 s0' s1' p r Hsl0 Hsl1 Ht Hc HM Hh Hses0 Hses1 Hp.
  destruct (sl_new_good _ _ _ _ Hsl0) as (Hg0 & Eb0 & Ep0 & _), (sl_new_good _ _ _ _ Hsl1) as (Hg1 & Eb1 & Ep1 & _).
  unfold tree_prove in Hp. destruct (tree_witness oc L t index 0 prm) as [[evens odds]|] eqn:Hw; [|discriminate Hp]. cbn [opt_bind fst snd] in Hp.
  destruct (tree_prove_opens L M prm set fuel height t oc index 0 evens odds Ht Hc HM Hw) as (leaf & root & Hleaf & Hr & Ho).
  rewrite <- Eb0, <- Ep0 in *. rewrite <- Eb1, <- Ep1 in *.
  destruct (sr_lockstep E0 E1 enc0 enc1 dbg L prm t root (t_height t) evens odds leaf os es tr0 tr1 s0 s1 t0 t1 s0' s1' p r Hg0 Hg1 Hr Ho Hh (tree_witness_root _ _ _ _ _ _ _ _ Hw Hh) ltac:(reflexivity) Hses0 Hses1 Hp) as (t0' & t1' & Hv & S0 & S1 & Hsel).
  exists t0', t1', leaf. split; [exact Hv|]. split; [exact (session_same _ _ _ _ _ _ S0)|]. split; [exact (session_same _ _ _ _ _ _ S1)|]. split; assumption.
Qed.
(** A tree that is a single leaf: the prover returns the identity as the selected
    commitment, the verifier panics. *)
Theorem C47_single_leaf_refuted : forall (F0 F1 : PField) (P0 : SWCurve F1 F0) (P1 : SWCurve F0 F1) (E0 : TrEnv P0) (E1 : TrEnv P1) (enc0 : P0 -> bytes) (enc1 : P1 -> bytes)
    pc0 pc1 (prm : SRParams P0 P1) (L : nat) (c : P0) oc dbg index ti os es s0 s1 (t0 : VState P0) (t1 : VState P1),
  exists p, tree_prove E0 E1 enc0 enc1 oc L (TEven (Leaf c)) index ti pc0 pc1 prm os es s0 s1 = Some (s0, s1, (p, 0)) /\ pa_selected p = v0 /\
    sr_verify E0 E1 enc0 enc1 dbg L prm (TEven (Leaf c)) p t0 t1 = None.
Proof. intros. exists (mkPath v0 [] []). split; [reflexivity|]. split; reflexivity. Qed.
Print Assumptions C47_same_circuits_partial.
Print Assumptions C47_single_leaf_refuted.

(** ** C48: membership proofs are complete *)
(** [admissible]: the scalars with which the prover does not panic (all but 81, and the two
    or three for which the child plus Delta is plus or minus r*H or the identity). *)
Theorem C48_complete_partial : forall (F0 F1 : PField) (P0 : SWCurve F1 F0) (P1 : SWCurve F0 F1) (E0 : TrEnv P0) (E1 : TrEnv P1) (enc0 : P0 -> bytes) (enc1 : P1 -> bytes)
    bp0 pc0 delta0 bp1 pc1 delta1 (prm : SRParams P0 P1) (L M : nat) (set : list P0) fuel height t oc dbg i leaf evens odds os es tr0 tr1 s0 s1 (t0 : VState P0) (t1 : VState P1),
  sl_new bp0 pc0 delta0 = Some (even_p prm) -> sl_new bp1 pc1 delta1 = Some (odd_p prm) -> sw_a P0 = 0 -> sw_a P1 = 0 ->
  from_set fuel L M prm set height = TOk t -> (N.of_nat (L ^ t_height t) < 2 ^ 64)%N -> (0 < M)%nat -> t_height t <> 0%nat ->
  nth_error set i = Some leaf -> tree_witness oc L t (N.of_nat i) 0 prm = Some (evens, odds) ->
  (forall k w, nth_error evens k = Some w -> admissible (odd_p prm) (w_child w) (os k)) -> (forall k w, nth_error odds k = Some w -> admissible (even_p prm) (w_child w) (es k)) ->
  session E0 pc0 bp0 tr0 s0 t0 -> session E1 pc1 bp1 tr1 s1 t1 -> honest s0 -> honest s1 -> p_def s0 = [] -> p_def s1 = [] ->
  exists s0' s1' (t0' : VState P0) (t1' : VState P1) p r,
    tree_prove E0 E1 enc0 enc1 oc L t (N.of_nat i) 0 pc0 pc1 prm os es s0 s1 = Some (s0', s1', (p, r)) /\
    sr_verify E0 E1 enc0 enc1 dbg L prm t p t0 t1 = Some (t0', t1', vadd leaf (vsmul r (pcB_blinding pc0))) /\
    satisfies (p_asg s0') (v_cs t0') /\ satisfies (p_asg s1') (v_cs t1') /\
    (forall dbg0 rnd pf trf dbg1 rr, gens_wf bp0 -> (gens_capacity bp0 < 2 ^ 32)%nat -> r1cs_prove E0 dbg0 rnd pc0 bp0 s0' = Some (Ok (pf, trf)) ->
       Forall (fun P => P <> v0) (validated_points (op_degree_of (length (p_vec s0'))) pf) -> r1cs_verify E0 dbg1 rr pf pc0 bp0 t0' = Some (Ok tt)) /\
    (forall dbg0 rnd pf trf dbg1 rr, gens_wf bp1 -> (gens_capacity bp1 < 2 ^ 32)%nat -> r1cs_prove E1 dbg0 rnd pc1 bp1 s1' = Some (Ok (pf, trf)) ->
       Forall (fun P => P <> v0) (validated_points (op_degree_of (length (p_vec s1'))) pf) -> r1cs_verify E1 dbg1 rr pf pc1 bp1 t1' = Some (Ok tt)).
Proof.
  intros F0 F1 P0 P1 E0 E1 enc0 enc1 bp0 pc0 delta0 bp1 pc1 delta1 prm L M set fuel height t oc dbg i leaf evens odds os es tr0 tr1 s0 s1 t0 t1 Hsl0 Hsl1 Ha0 Ha1 Ht Hc HM Hh Hleaf Hw Aos Aes Hses0 Hses1 Hh0 Hh1 Hd0 Hd1.
  destruct (sl_new_good _ _ _ _ Hsl0) as (Hg0 & Eb0 & Ep0 & _), (sl_new_good _ _ _ _ Hsl1) as (Hg1 & Eb1 & Ep1 & _).
  destruct (tree_prove_opens L M prm set fuel height t oc (N.of_nat i) 0 evens odds Ht Hc HM Hw) as (leaf' & root & Hleaf' & Hr & Ho).
  assert (leaf' = leaf) as ->.
  { destruct (from_set_ok _ _ _ _ _ _ _ Ht) as (HL & d & Hd & _). rewrite (tree_ok_height _ _ _ _ _ _ Hd) in *. assert (Hi : (i < length set)%nat) by (apply nth_error_Some; rewrite Hleaf; discriminate).
    rewrite (index_small L d set i Hi (proj2 (tree_ok_le _ _ _ _ _ _ HL Hd))) in Hleaf'. congruence. }
  rewrite <- Eb0, <- Ep0 in *. rewrite <- Eb1, <- Ep1 in *.
  destruct (sr_total E0 E1 enc0 enc1 L prm root (t_height t) evens odds leaf os es s0 s1 Hg0 Hg1 Ha0 Ha1 Ho Aos Aes Hh0 Hh1) as (s0' & s1' & p & r & Hp & Hh0' & Hh1' & _ & _ & Hd0' & Hd1').
  destruct (sr_lockstep E0 E1 enc0 enc1 dbg L prm t root (t_height t) evens odds leaf os es tr0 tr1 s0 s1 t0 t1 s0' s1' p r Hg0 Hg1 Hr Ho Hh (tree_witness_root _ _ _ _ _ _ _ _ Hw Hh) ltac:(reflexivity) Hses0 Hses1 Hp) as (t0' & t1' & Hv & S0 & S1 & Hsel).
  exists s0', s1', t0', t1', p, r. unfold tree_prove. rewrite Hw. cbn [opt_bind fst snd]. split; [exact Hp|]. rewrite <- Hsel. split; [exact Hv|].
  destruct (session_same _ _ _ _ _ _ S0) as [C0 _], (session_same _ _ _ _ _ _ S1) as [C1 _]. rewrite <- C0, <- C1.
  split; [apply honest_satisfies, Hh0'|]. split; [apply honest_satisfies, Hh1'|]. split.
  - intros dbg0 rnd pf trf dbg1 rr Hwf Hcap Hprove Hnz. eapply C08_complete; try eassumption; [congruence|apply honest_satisfies, Hh0'].
  - intros dbg0 rnd pf trf dbg1 rr Hwf Hcap Hprove Hnz. eapply C08_complete; try eassumption; [congruence|apply honest_satisfies, Hh1'].
Qed.
Print Assumptions C48_complete_partial.

(** ** C49: which depths can be selected *)
(** With debug assertions the number of commitments must match the height. *)
Theorem C49_debug_length : forall (F0 F1 : PField) (P0 : SWCurve F1 F0) (P1 : SWCurve F0 F1) (E0 : TrEnv P0) (E1 : TrEnv P1) enc0 enc1 L (prm : SRParams P0 P1) t p t0 t1 r,
  sr_verify E0 E1 enc0 enc1 true L prm t p t0 t1 = Some r -> t_height t = (length (pa_even p) + length (pa_odd p) + 1)%nat.
Proof.
  intros F0 F1 P0 P1 E0 E1 enc0 enc1 L prm t p t0 t1 r H. unfold sr_verify, verification_commitments in H.
  destruct t as [ct|ct]; unfold guard in H; destruct (_ =? _)%nat; try discriminate H; destruct (n_commitment ct 0) as [c|]; try discriminate H; cbn [opt_bind pa_even pa_odd andb length] in H;
    match type of H with (if negb (?a =? ?b)%nat then _ else _) = _ => destruct (Nat.eqb_spec a b) as [E|]; [|discriminate H] end; rewrite E; lia.
Qed.
(** In every build a path has the parity of the tree, so the selected point is a node of
    the curve of the leaves. *)
Theorem C49_parity : forall (F0 F1 : PField) (P0 : SWCurve F1 F0) (P1 : SWCurve F0 F1) (E0 : TrEnv P0) (E1 : TrEnv P1) enc0 enc1 dbg L (prm : SRParams P0 P1) t p t0 t1 r,
  sr_verify E0 E1 enc0 enc1 dbg L prm t p t0 t1 = Some r ->
  length (pa_odd p) = (if t_is_even t then length (pa_even p) + 1 else length (pa_even p))%nat.
Proof.
  intros F0 F1 P0 P1 E0 E1 enc0 enc1 dbg L prm t p t0 t1 r H. unfold sr_verify, verification_commitments in H.
  destruct t as [ct|ct]; unfold guard in H; match type of H with context [(?a =? ?b)%nat] => destruct (Nat.eqb_spec a b) as [E|]; [|discriminate H] end; cbn [t_is_even]; lia.
Qed.
(** Any shorter path of the same parity. *)
Lemma opens_prefix L ti : forall k d (F0 F1 : PField) (P0 : SWCurve F1 F0) (P1 : SWCurve F0 F1) (prm0 : SLParams P0) (prm1 : SLParams P1) parent evens odds leaf,
  opens L ti (k + d) prm0 prm1 parent evens odds leaf ->
  exists node, opens L ti k prm0 prm1 parent (firstn (next_length 2 k) evens) (firstn (k / 2) odds) node.
Proof.
  induction k as [|k IH]; intros d F0 F1 P0 P1 prm0 prm1 parent evens odds leaf H.
  - exists (inl parent). cbn. auto.
  - cbn [Nat.add opens] in H. destruct H as (w & evens' & -> & H1 & H2 & H3 & H). apply IH in H as (node & Hn). exists (swap_sum node).
    assert (E1 : next_length 2 (S k) = S (k / 2)) by (unfold next_length; replace (S k + 2 - 1)%nat with (k + 1 * 2)%nat by lia; rewrite Nat.div_add by lia; lia).
    assert (E2 : (S k / 2)%nat = next_length 2 k) by (unfold next_length; f_equal; lia).
    rewrite E1, E2. cbn [firstn opens]. exists w, (firstn (k / 2) evens'). split; [reflexivity|]. split; [exact H1|]. split; [exact H2|]. split; [exact H3|]. destruct node; exact Hn.
Qed.
(** Release mode: for every tree of height h and every k < h of the same parity, k >= 1,
    the truncated witness path yields a satisfied circuit the verifier builds too: an inner
    node at depth k is selected in place of a leaf. *)
Theorem C49_inner_node_refuted : forall (F0 F1 : PField) (P0 : SWCurve F1 F0) (P1 : SWCurve F0 F1) (E0 : TrEnv P0) (E1 : TrEnv P1) (enc0 : P0 -> bytes) (enc1 : P1 -> bytes)
    bp0 pc0 delta0 bp1 pc1 delta1 (prm : SRParams P0 P1) (L M : nat) (set : list P0) fuel height t oc index k j evens odds os es tr0 tr1 s0 s1 (t0 : VState P0) (t1 : VState P1),
  sl_new bp0 pc0 delta0 = Some (even_p prm) -> sl_new bp1 pc1 delta1 = Some (odd_p prm) -> sw_a P0 = 0 -> sw_a P1 = 0 ->
  from_set fuel L M prm set height = TOk t -> (N.of_nat (L ^ t_height t) < 2 ^ 64)%N -> (0 < M)%nat -> (1 <= k)%nat -> t_height t = (k + 2 * j)%nat ->
  tree_witness oc L t index 0 prm = Some (evens, odds) ->
  let evens' := firstn (if t_is_even t then next_length 2 k else k / 2)%nat evens in let odds' := firstn (if t_is_even t then k / 2 else next_length 2 k)%nat odds in
  (forall k w, nth_error evens' k = Some w -> admissible (odd_p prm) (w_child w) (os k)) -> (forall k w, nth_error odds' k = Some w -> admissible (even_p prm) (w_child w) (es k)) ->
  session E0 pc0 bp0 tr0 s0 t0 -> session E1 pc1 bp1 tr1 s1 t1 -> honest s0 -> honest s1 ->
  exists s0' s1' (t0' : VState P0) (t1' : VState P1) p r node root,
    t_commitment t 0 = Some root /\ t_opens L 0 k prm root evens' odds' node /\
    sr_prove E0 E1 enc0 enc1 pc0 pc1 prm evens' odds' os es s0 s1 = Some (s0', s1', (p, r)) /\
    sr_verify E0 E1 enc0 enc1 false L prm t p t0 t1 = Some (t0', t1', vadd node (vsmul r (pcB_blinding pc0))) /\
    same_circuit pc0 bp0 s0' t0' /\ same_circuit pc1 bp1 s1' t1' /\ satisfies (p_asg s0') (v_cs t0') /\ satisfies (p_asg s1') (v_cs t1').
Proof.
  intros F0 F1 P0 P1 E0 E1 enc0 enc1 bp0 pc0 delta0 bp1 pc1 delta1 prm L M set fuel height t oc index k j evens odds os es tr0 tr1 s0 s1 t0 t1 Hsl0 Hsl1 Ha0 Ha1 Ht Hc HM Hk Hj Hw evens' odds' Aos Aes Hses0 Hses1 Hh0 Hh1.
  destruct (sl_new_good _ _ _ _ Hsl0) as (Hg0 & Eb0 & Ep0 & _), (sl_new_good _ _ _ _ Hsl1) as (Hg1 & Eb1 & Ep1 & _).
  destruct (tree_prove_opens L M prm set fuel height t oc index 0 evens odds Ht Hc HM Hw) as (leaf & root & _ & Hr & Ho). rewrite Hj in Ho.
  assert (Hh : t_height t <> 0%nat) by lia. pose proof (tree_witness_root _ _ _ _ _ _ _ _ Hw Hh) as Hpub.
  assert (Hopen : exists node, t_opens L 0 k prm root evens' odds' node).
  { pose proof (halves k) as Hk2. assert (Ek : (next_length 2 (k + 2 * j) = next_length 2 k + j)%nat /\ ((k + 2 * j) / 2 = k / 2 + j)%nat).
    { unfold next_length. replace (k + 2 * j + 2 - 1)%nat with (k + 2 - 1 + j * 2)%nat by lia. replace (k + 2 * j)%nat with (k + j * 2)%nat by lia. rewrite !Nat.div_add by lia. auto. }
    destruct Ek as [Ek1 Ek2]. destruct t as [ct|ct]; cbn [t_commitment t_is_even] in *; subst evens' odds'.
    - destruct (n_commitment ct 0) as [c|]; [|discriminate Hr]. apply Some_inj in Hr. subst root. cbn [t_opens] in *. destruct (opens_prefix _ _ _ _ _ _ _ _ _ _ _ _ _ _ Ho) as (node & Hn).
      destruct (opens_lengths _ _ _ _ _ _ _ _ _ _ _ _ _ Ho) as [L1 L2]. destruct (opens_lengths _ _ _ _ _ _ _ _ _ _ _ _ _ Hn) as [L3 L4]. pose proof (opens_leaf _ _ _ _ _ _ _ _ _ _ _ _ _ Ho) as [H1 _]. pose proof (opens_leaf _ _ _ _ _ _ _ _ _ _ _ _ _ Hn) as H2.
      destruct node as [node|node]; [exists node; exact Hn|]. destruct H2 as [H2 _]. lia.
    - destruct (n_commitment ct 0) as [c|]; [|discriminate Hr]. apply Some_inj in Hr. subst root. cbn [t_opens] in *. destruct (opens_prefix _ _ _ _ _ _ _ _ _ _ _ _ _ _ Ho) as (node & Hn).
      destruct (opens_lengths _ _ _ _ _ _ _ _ _ _ _ _ _ Ho) as [L1 L2]. destruct (opens_lengths _ _ _ _ _ _ _ _ _ _ _ _ _ Hn) as [L3 L4]. pose proof (opens_leaf _ _ _ _ _ _ _ _ _ _ _ _ _ Ho) as [H1 _]. pose proof (opens_leaf _ _ _ _ _ _ _ _ _ _ _ _ _ Hn) as H2.
      destruct node as [node|node]; [destruct H2 as [H2 _]; lia|]. exists node. exact Hn. }
  destruct Hopen as (node & Hn).
  assert (Hpub' : root_public prm t 0 evens' odds').
  { destruct t as [ct|ct]; cbn [root_public t_is_even] in *; destruct Hpub as (w & Hw0 & Hx); exists w; (split; [|exact Hx]); subst evens' odds'; rewrite nth_error_firstn.
    - assert (0 < next_length 2 k)%nat by (unfold next_length; apply Nat.div_str_pos; lia). destruct (Nat.ltb_spec 0 (next_length 2 k)); [exact Hw0|lia].
    - assert (0 < next_length 2 k)%nat by (unfold next_length; apply Nat.div_str_pos; lia). destruct (Nat.ltb_spec 0 (next_length 2 k)); [exact Hw0|lia]. }
  rewrite <- Eb0, <- Ep0 in *. rewrite <- Eb1, <- Ep1 in *.
  destruct (sr_total E0 E1 enc0 enc1 L prm root k evens' odds' node os es s0 s1 Hg0 Hg1 Ha0 Ha1 Hn Aos Aes Hh0 Hh1) as (s0' & s1' & p & r & Hp & Hh0' & Hh1' & _).
  destruct (sr_lockstep E0 E1 enc0 enc1 false L prm t root k evens' odds' node os es tr0 tr1 s0 s1 t0 t1 s0' s1' p r Hg0 Hg1 Hr Hn ltac:(lia) Hpub' ltac:(discriminate) Hses0 Hses1 Hp) as (t0' & t1' & Hv & S0 & S1 & Hsel).
  exists s0', s1', t0', t1', p, r, node, root. split; [exact Hr|]. split; [exact Hn|]. split; [exact Hp|]. rewrite <- Hsel. split; [exact Hv|].
  pose proof (session_same _ _ _ _ _ _ S0) as C0. pose proof (session_same _ _ _ _ _ _ S1) as C1. split; [exact C0|]. split; [exact C1|]. rewrite <- (proj1 C0), <- (proj1 C1). split; apply honest_satisfies; assumption.
Qed.
Print Assumptions C49_debug_length.
Print Assumptions C49_parity.
Print Assumptions C49_inner_node_refuted.

(** ** The hypotheses are satisfiable: a tree with five leaves over the toy cycle *)
Definition EE0 : TrEnv TC0 := toy_env PM163.
(* test data or vocabulary of statements, no code modelled *)
Definition EE1 : TrEnv TC1 := toy_env PM139.
(* test data or vocabulary of statements, no code modelled *)
Definition ec0 (x : TC0) : bytes := enc_fp PM163 x.
(* test data or vocabulary of statements, no code modelled *)
Definition ec1 (x : TC1) : bytes := enc_fp PM139 x.
(* test data or vocabulary of statements, no code modelled *)
Definition big0 : BPGens TC0 := toy_gens PM163 128 1.
(* test data or vocabulary of statements, no code modelled *)
Definition big1 : BPGens TC1 := toy_gens PM139 128 1.
(* test data or vocabulary of statements, no code modelled *)
Definition toy_os (i : nat) : PF139 := fp_mk (p:=PM139) (50 + 3 * Z.of_nat i).
(* test data or vocabulary of statements, no code modelled *)
Definition toy_es (i : nat) : PF163 := fp_mk (p:=PM163) (77 + 2 * Z.of_nat i).
(* test data or vocabulary of statements, no code modelled *)
Definition toy_rnd (q : PrimeMod) : PRand (FpField q) :=
  let z := fun k : Z => fp_mk (p:=q) k : FpField q in
  (mkRand (z 11) (z 12) (z 13) (fun i => z (17 + Z.of_nat i)) (fun i => z (23 + Z.of_nat i)) (z 31) (z 32) (z 33) (fun i => z (37 + Z.of_nat i)) (fun i => z (43 + Z.of_nat i)) (fun i => z (51 + 3 * Z.of_nat i)))%Z.
(* test data or vocabulary of statements, no code modelled *)
Definition adm_b {F S : PField} {C : SWCurve F S} (prm : SLParams C) (c : C) (r : S) : bool :=
  let P := vadd c (sl_delta prm) in let h := pcB_blinding (sl_pc prm) in
  (negb (exceptional_b (pf_mod S) (pf_repr r)) && negb (veqb P v0) && negb (veqb (vsmul r h) P) && negb (veqb (vsmul r h) (vopp P)))%bool.
Lemma adm_b_spec {F S : PField} {C : SWCurve F S} (prm : SLParams C) (c : C) (r : S) : adm_b prm c r = true -> admissible prm c r.
Proof.
  unfold adm_b, admissible. intros H. apply andb_prop in H as [H H4]. apply andb_prop in H as [H H3]. apply andb_prop in H as [H1 H2]. apply Bool.negb_true_iff in H1, H2, H3, H4.
  split; [apply exceptional_b_spec, H1|]. split; [|split]; intros E; [rewrite E, veqb_refl in H2|rewrite E, veqb_refl in H3|rewrite E, veqb_refl in H4]; discriminate.
Qed.
(* test data or vocabulary of statements, no code modelled *)
Definition adm_all {F S S' : PField} {C : SWCurve F S} (prm : SLParams C) (r : nat -> S) (ws : list (Wit S' C)) : bool := forallb (fun b => b) (imap (fun i w => adm_b prm (w_child w) (r i)) 0 ws).
Lemma adm_all_spec {F S S' : PField} {C : SWCurve F S} (prm : SLParams C) (r : nat -> S) (ws : list (Wit S' C)) : adm_all prm r ws = true -> forall i w, nth_error ws i = Some w -> admissible prm (w_child w) (r i).
Proof.
  unfold adm_all. intros H i w Hw. rewrite forallb_forall in H. apply adm_b_spec, H. apply nth_error_In with (n := i). rewrite imap_nth, Hw. reflexivity.
Qed.
(** A computation about the toy tree and the witness for index 3 of tree [ti]. *)
Definition with_tree (ti : nat) (f : SRParams TC0 TC1 -> CurveTree TC0 TC1 -> list (Wit PF163 TC1) -> list (Wit PF139 TC0) -> bool) : bool :=
  match sl_new big0 toy_pcg toy_delta, sl_new big1 toy_pcg1 toy_delta1 with
  | Some a, Some b => let prm := mkSRP a b in
     match from_set 6 2 2 prm toy_set None with
     | TOk t => match tree_witness true 2 t 3 ti prm with Some (e, o) => f prm t e o | None => false end
     | _ => false end
  | _, _ => false end.
Lemma with_tree_spec ti f : with_tree ti f = true -> exists prm t e o, sl_new big0 toy_pcg toy_delta = Some (even_p prm) /\ sl_new big1 toy_pcg1 toy_delta1 = Some (odd_p prm) /\
  from_set 6 2 2 prm toy_set None = TOk t /\ tree_witness true 2 t 3 ti prm = Some (e, o) /\ f prm t e o = true.
Proof.
  unfold with_tree. intros H. destruct (sl_new big0 toy_pcg toy_delta) as [a|]; [|discriminate H]. destruct (sl_new big1 toy_pcg1 toy_delta1) as [b|]; [|discriminate H]. cbv zeta in H.
  destruct (from_set 6 2 2 (mkSRP a b) toy_set None) as [t| |] eqn:Et; try discriminate H. destruct (tree_witness true 2 t 3 ti (mkSRP a b)) as [[e o]|] eqn:Ew; [|discriminate H].
  exists (mkSRP a b), t, e, o. repeat split; assumption.
Qed.
(* test data or vocabulary of statements, no code modelled *)
Definition nz_points {F : Field} {V : VSpace F} (n : nat) (pf : R1CSProof V) : bool := forallb (fun P => negb (veqb P v0)) (validated_points (op_degree_of n) pf).
(* test data or vocabulary of statements, no code modelled *)
Definition accepted {A} (r : option (Res A)) : bool := match r with Some (Ok _) => true | _ => false end.
(** Both R1CS proofs are made and have the expected result. *)
Definition toy_proofs (dbg : bool) (want : bool) (prm : SRParams TC0 TC1) (t : CurveTree TC0 TC1) (e : list (Wit PF163 TC1)) (o : list (Wit PF139 TC0)) : bool :=
  match sr_prove EE0 EE1 ec0 ec1 toy_pcg toy_pcg1 prm e o toy_os toy_es (p_new []) (p_new []) with
  | Some (s0, s1, (p, r)) =>
    match r1cs_prove EE0 true (toy_rnd PM163) toy_pcg big0 s0, r1cs_prove EE1 true (toy_rnd PM139) toy_pcg1 big1 s1, sr_verify EE0 EE1 ec0 ec1 dbg 2 prm t p (v_new []) (v_new []) with
    | Some (Ok (pf0, _)), Some (Ok (pf1, _)), Some (t0, t1, _) =>
      nz_points (length (p_vec s0)) pf0 && nz_points (length (p_vec s1)) pf1 &&
      Bool.eqb (accepted (r1cs_verify EE0 true (fp_mk (p:=PM163) 5) pf0 toy_pcg big0 t0) && accepted (r1cs_verify EE1 true (fp_mk (p:=PM139) 5) pf1 toy_pcg1 big1 t1)) want
    | _, _, _ => false end
  | None => false end.

(** Height 3, root on the odd curve, index 3 selects the leaf 53; [C47] and [C48]. *)
Example C48_demo : exists prm t evens odds, sl_new big0 toy_pcg toy_delta = Some (even_p prm) /\ sl_new big1 toy_pcg1 toy_delta1 = Some (odd_p prm) /\ sw_a TC0 = 0 /\ sw_a TC1 = 0 /\
  from_set 6 2 2 prm toy_set None = TOk t /\ t_height t = 3%nat /\ tree_witness true 2 t 3 0 prm = Some (evens, odds) /\
  (forall k w, nth_error evens k = Some w -> admissible (odd_p prm) (w_child w) (toy_os k)) /\ (forall k w, nth_error odds k = Some w -> admissible (even_p prm) (w_child w) (toy_es k)) /\
  exists s0' s1' (t0' : VState TC0) (t1' : VState TC1) p r,
    tree_prove EE0 EE1 ec0 ec1 true 2 t 3 0 toy_pcg toy_pcg1 prm toy_os toy_es (p_new []) (p_new []) = Some (s0', s1', (p, r)) /\
    sr_verify EE0 EE1 ec0 ec1 true 2 prm t p (v_new []) (v_new []) = Some (t0', t1', vadd (k163 53) (vsmul r (pcB_blinding toy_pcg))) /\
    satisfies (p_asg s0') (v_cs t0') /\ satisfies (p_asg s1') (v_cs t1').
Proof.
  destruct (with_tree_spec 0 (fun prm t e o => (t_height t =? 3)%nat && adm_all (odd_p prm) toy_os e && adm_all (even_p prm) toy_es o)%bool ltac:(vm_compute; reflexivity)) as (prm & t & e & o & H0 & H1 & Ht & Hw & H).
  apply andb_prop in H as [H Ao]. apply andb_prop in H as [Eh Ae]. apply Nat.eqb_eq in Eh. pose proof (adm_all_spec _ _ _ Ae) as Be. pose proof (adm_all_spec _ _ _ Ao) as Bo.
  exists prm, t, e, o. split; [exact H0|]. split; [exact H1|]. split; [reflexivity|]. split; [reflexivity|]. split; [exact Ht|]. split; [exact Eh|]. split; [exact Hw|]. split; [exact Be|]. split; [exact Bo|].
  destruct (C48_complete_partial _ _ TC0 TC1 EE0 EE1 ec0 ec1 big0 toy_pcg toy_delta big1 toy_pcg1 toy_delta1 prm 2 2 toy_set 6 None t true true 3 (k163 53) e o toy_os toy_es [] [] (p_new []) (p_new []) (v_new []) (v_new [])
    H0 H1 eq_refl eq_refl Ht ltac:(rewrite Eh; vm_compute; reflexivity) ltac:(lia) ltac:(rewrite Eh; discriminate) eq_refl Hw Be Bo (ses_new _ _ _ _) (ses_new _ _ _ _) (honest_new _) (honest_new _) eq_refl eq_refl)
    as (s0' & s1' & t0' & t1' & p & r & C1 & C2 & C3 & C4 & _).
  exists s0', s1', t0', t1', p, r. split; [exact C1|]. split; [exact C2|]. split; [exact C3|exact C4].
Qed.
(** The two proofs are made, their points are not the identity, and they verify. *)
Example C48_demo_run : with_tree 0 (toy_proofs true true) = true.
Proof. vm_compute. reflexivity. Qed.
(** A prover that uses the second of the M = 2 parallel trees is not understood by the
    verifier of single paths, which always uses the first: an honest proof is rejected. *)
Theorem C47_second_tree_refuted : exists (prm : SRParams TC0 TC1) t s0' s1' p r (t0' : VState TC0) (t1' : VState TC1) v, from_set 6 2 2 prm toy_set None = TOk t /\
  tree_prove EE0 EE1 ec0 ec1 true 2 t 3 1 toy_pcg toy_pcg1 prm toy_os toy_es (p_new []) (p_new []) = Some (s0', s1', (p, r)) /\
  sr_verify EE0 EE1 ec0 ec1 true 2 prm t p (v_new []) (v_new []) = Some (t0', t1', v) /\ p_cs s1' <> v_cs t1' /\ Forall (fun lc => lc_val (p_asg s1') lc = 0) (p_cs s1') /\ ~ satisfies (p_asg s1') (v_cs t1').
Proof.
  destruct (with_tree_spec 1 (fun prm t e o =>
    match sr_prove EE0 EE1 ec0 ec1 toy_pcg toy_pcg1 prm e o toy_os toy_es (p_new []) (p_new []) with
    | Some (s0, s1, (p, r)) => match sr_verify EE0 EE1 ec0 ec1 true 2 prm t p (v_new []) (v_new []) with
      | Some (t0, t1, _) => forallb (fun lc => feqb (lc_val (p_asg s1) lc) 0) (p_cs s1) && negb (forallb (fun lc => feqb (lc_val (p_asg s1) lc) 0) (v_cs t1))
      | None => false end
    | None => false end) ltac:(vm_compute; reflexivity)) as (prm & t & e & o & H0 & H1 & Ht & Hw & H).
  destruct (sr_prove EE0 EE1 ec0 ec1 toy_pcg toy_pcg1 prm e o toy_os toy_es (p_new []) (p_new [])) as [[[s0 s1] [p r]]|] eqn:Ep; [|discriminate H].
  destruct (sr_verify EE0 EE1 ec0 ec1 true 2 prm t p (v_new []) (v_new [])) as [[[t0 t1] v]|] eqn:Ev; [|discriminate H].
  assert (Hs : forall cs, forallb (fun lc => feqb (lc_val (p_asg s1) lc) 0) cs = true <-> Forall (fun lc => lc_val (p_asg s1) lc = 0) cs).
  { intros cs. rewrite forallb_forall, Forall_forall. split; intros Hc x Hx; specialize (Hc x Hx); apply feqb_true; exact Hc. }
  apply andb_prop in H as [Ha Hb]. apply Bool.negb_true_iff in Hb. exists prm, t, s0, s1, p, r, t0, t1, v. split; [exact Ht|].
  split; [unfold tree_prove; rewrite Hw; exact Ep|]. split; [exact Ev|]. split; [intros E; rewrite E in Ha; rewrite Ha in Hb; discriminate Hb|]. split; [apply Hs, Ha|].
  intros (_ & _ & C). apply Hs in C. rewrite C in Hb. discriminate Hb.
Qed.
Print Assumptions C47_second_tree_refuted.
Example C47_second_tree_run : with_tree 1 (toy_proofs true false) = true.
Proof. vm_compute. reflexivity. Qed.
(** k = 1: the child of the root on the path to index 3 is selected in place of a leaf. *)
Example C49_demo : exists prm t s0' s1' (t0' : VState TC0) (t1' : VState TC1) p r node root, from_set 6 2 2 prm toy_set None = TOk t /\ t_height t = 3%nat /\
    t_commitment t 0 = Some root /\ (exists w, t_opens 2 0 1 prm root [] [w] node) /\
    sr_verify EE0 EE1 ec0 ec1 false 2 prm t p (v_new []) (v_new []) = Some (t0', t1', vadd node (vsmul r (pcB_blinding toy_pcg))) /\
    satisfies (p_asg s0') (v_cs t0') /\ satisfies (p_asg s1') (v_cs t1') /\ same_circuit toy_pcg big0 s0' t0' /\ same_circuit toy_pcg1 big1 s1' t1'.
Proof.
  destruct (with_tree_spec 0 (fun prm t e o => (t_height t =? 3)%nat && negb (t_is_even t) && adm_all (even_p prm) toy_es (firstn 1 o) && (length o =? 2)%nat)%bool ltac:(vm_compute; reflexivity)) as (prm & t & e & o & H0 & H1 & Ht & Hw & H).
  apply andb_prop in H as [H Hl]. apply andb_prop in H as [H Ao]. apply andb_prop in H as [Eh Ev]. apply Nat.eqb_eq in Eh, Hl. apply Bool.negb_true_iff in Ev. pose proof (adm_all_spec _ _ _ Ao) as Bo.
  pose proof (C49_inner_node_refuted _ _ TC0 TC1 EE0 EE1 ec0 ec1 big0 toy_pcg toy_delta big1 toy_pcg1 toy_delta1 prm 2 2 toy_set 6 None t true 3 1 1 e o toy_os toy_es [] [] (p_new []) (p_new []) (v_new []) (v_new [])
    H0 H1 eq_refl eq_refl Ht ltac:(rewrite Eh; vm_compute; reflexivity) ltac:(lia) ltac:(lia) Eh Hw) as C. rewrite Ev in C.
  destruct (C ltac:(intros [|k] w E; discriminate E) Bo (ses_new _ _ _ _) (ses_new _ _ _ _) (honest_new _) (honest_new _)) as (s0' & s1' & t0' & t1' & p & r & node & root & C1 & C2 & C3 & C4 & C5 & C6 & C7 & C8).
  exists prm, t, s0', s1', t0', t1', p, r, node, root. split; [exact Ht|]. split; [exact Eh|]. split; [exact C1|]. split; [destruct o as [|w o]; [discriminate Hl|exists w; exact C2]|]. split; [exact C4|]. split; [exact C7|]. split; [exact C8|]. split; assumption.
Qed.
(** The two R1CS proofs of that path are accepted as well. *)
Example C49_demo_run : with_tree 0 (fun prm t e o => toy_proofs false true prm t [] (firstn 1 o)) = true.
Proof. vm_compute. reflexivity. Qed.
