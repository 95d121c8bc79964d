(** * Properties of the payment layer: C52 to C56, C63 *)
From Verif Require Export PourProofs PropsSerial.
From Verif Require Import CSProofs UtilProofs Lockstep CSMore R1CS R1CSSpec R1CSProofs R1CSMain Toy ToyCurve PropsGadgets PropsRerand PropsSelRerand PropsSelBatch.
Local Open Scope F_scope.

(** ** C52: spending does not trip the prover's internal assertion *)
(** For trees of height at least 1 (see below for height 0).  The coin was made by
    [Coin::new] and its commitment is stored at position [i]; minting the coin gives the same
    commitment.  [prove_spend] returns [Some], so its assertion holds, and the selected
    commitment is the stored one, re-randomized. *)
Theorem C52_spend_partial : forall (F0 F1 : PField) (P0 : SWCurve F1 F0) (P1 : SWCurve F0 F1) (FC : Field) (C : VSpace FC) (E0 : TrEnv P0) (E1 : TrEnv P1) (enc0 : P0 -> bytes) (enc1 : P1 -> bytes)
    (sg : SigScheme FC C) (enc_pk : C -> bytes) (enc_sc : FC -> bytes) (sha3 : bytes -> bytes)
    bp0 pc0 delta0 bp1 pc1 delta1 (prm : SRParams P0 P1) (L M : nat) (set : list P0) fuel height t oc i value pk pkr b coin leaf evens odds os es s0 s1,
  sl_new bp0 pc0 delta0 = Some (even_p prm) -> sl_new bp1 pc1 delta1 = Some (odd_p prm) -> sw_a P0 = 0 -> sw_a P1 = 0 ->
  from_set fuel L M prm set height = TOk t -> (N.of_nat (L ^ t_height t) < 2 ^ 64)%N -> (0 < M)%nat -> t_height t <> 0%nat ->
  coin_new sg enc_pk enc_sc sha3 (even_p prm) value pk pkr b = Some (coin, leaf) ->
  nth_error set i = Some leaf -> tree_witness oc L t (N.of_nat i) 0 prm = Some (evens, odds) ->
  (forall k w, nth_error evens k = Some w -> admissible (odd_p prm) (w_child w) (os k)) -> (forall k w, nth_error odds k = Some w -> admissible (even_p prm) (w_child w) (es k)) ->
  honest s0 -> honest s1 ->
  (exists s0' s1' p v r, prove_spend E0 E1 enc0 enc1 oc L coin (N.of_nat i) pc0 pc1 prm t os es s0 s1 = Some (s0', s1', (p, v)) /\ p_asg s0' v = fN value /\
     pa_selected p = vadd leaf (vsmul r (pcB_blinding pc0))) /\
  ((value < 2 ^ 64)%N -> forall dbg s, honest s -> exists s' v, coin_mint E0 sg enc_pk enc_sc sha3 dbg pc0 (even_p prm) value pk pkr b s = Some (s', (coin, leaf, v)) /\ p_asg s' v = fN value).
Proof.
  intros F0 F1 P0 P1 FC C E0 E1 enc0 enc1 sg enc_pk enc_sc sha3 bp0 pc0 delta0 bp1 pc1 delta1 prm L M set fuel height t oc i value pk pkr b coin leaf evens odds os es s0 s1 Hsl0 Hsl1 Ha0 Ha1 Ht Hc HM Hh Hn Hleaf Hw Aos Aes Hh0 Hh1.
  destruct (sl_new_good _ _ _ _ Hsl0) as (Hg0 & Eb0 & Ep0 & _), (sl_new_good _ _ _ _ Hsl1) as (Hg1 & Eb1 & Ep1 & _). rewrite <- Ep0, <- Ep1. split.
  - destruct (spend_total E0 E1 enc0 enc1 sg enc_pk enc_sc sha3 oc L M prm set fuel height t i leaf evens odds os es s0 s1 value pk pkr b coin Hg0 Hg1 Ha0 Ha1 Ht Hc HM Hh Hleaf Hw Aos Aes Hn Hh0 Hh1) as (s0' & s1' & p & v & R & _ & _ & _ & _ & _ & V & _).
    pose proof R as R'. unfold Coin.prove_spend, tree_prove in R. rewrite Hw in R. cbn [opt_bind fst snd] in R.
    destruct (sr_prove E0 E1 enc0 enc1 (sl_pc (even_p prm)) (sl_pc (odd_p prm)) prm evens odds os es s0 s1) as [[[u0 u1] [q r]]|] eqn:Hq; [|discriminate R]. cbn [opt_bind] in R.
    exists s0', s1', p, v, r. split; [exact R'|]. split; [exact V|].
    destruct (p_commit_vec E0 _ _ u0 _ _) as [[u2 [c vs]]|]; [|discriminate R]. cbn [opt_bind] in R. destruct (veqb (pa_selected q) c); [|discriminate R]. cbn [guard] in R.
    destruct (nth_error vs 0); [|discriminate R]. cbn [opt_bind] in R. destruct (nth_error vs 1); [|discriminate R]. cbn [opt_bind] in R. apply Some_inj in R. injection R as _ _ <- _.
    destruct (tree_prove_opens L M prm set fuel height t oc (N.of_nat i) 0 evens odds Ht Hc HM Hw) as (leaf' & root & Hleaf' & Hr & Ho).
    rewrite (sr_selected _ _ _ _ _ _ _ _ _ _ _ _ _ _ _ _ _ _ _ _ _ Ho Hh Hq). f_equal.
    destruct (from_set_ok _ _ _ _ _ _ _ Ht) as (HL & d & Hd & _). rewrite (tree_ok_height _ _ _ _ _ _ Hd) in *. assert (Hi : (i < length set)%nat) by (apply nth_error_Some; rewrite Hleaf; discriminate).
    rewrite (index_small L d set i Hi (proj2 (tree_ok_le _ _ _ _ _ _ HL Hd))) in Hleaf'. congruence.
  - intros Hv dbg s Hs. destruct (mint_total E0 sg enc_pk enc_sc sha3 dbg (even_p prm) _ _ _ _ _ _ s Hs Hn Hv) as (s' & v & R & _ & _ & _ & V & _). exists s', v. split; [exact R|exact V].
Qed.
(** In a tree that is a single leaf the assertion fails: the prover's path selects the
    identity. *)
Theorem C52_single_leaf_refuted : forall (F0 F1 : PField) (P0 : SWCurve F1 F0) (P1 : SWCurve F0 F1) (FC : Field) (C : VSpace FC) (E0 : TrEnv P0) (E1 : TrEnv P1) (enc0 : P0 -> bytes) (enc1 : P1 -> bytes)
    (sg : SigScheme FC C) (enc_pk : C -> bytes) (enc_sc : FC -> bytes) (sha3 : bytes -> bytes) (prm : SRParams P0 P1) (L : nat) value pk pkr b coin c oc index os es s0 s1,
  coin_new sg enc_pk enc_sc sha3 (even_p prm) value pk pkr b = Some (coin, c) -> c <> v0 -> honest s0 ->
  prove_spend E0 E1 enc0 enc1 oc L coin index (sl_pc (even_p prm)) (sl_pc (odd_p prm)) prm (TEven (Leaf c)) os es s0 s1 = None.
Proof.
  intros F0 F1 P0 P1 FC C E0 E1 enc0 enc1 sg enc_pk enc_sc sha3 prm L value pk pkr b coin c oc index os es s0 s1 Hn Hz Hh.
  unfold Coin.prove_spend. destruct (C47_single_leaf_refuted _ _ P0 P1 E0 E1 enc0 enc1 (sl_pc (even_p prm)) (sl_pc (odd_p prm)) prm L c oc true index 0 os es s0 s1 (v_new []) (v_new [])) as (p & -> & Hp & _). cbn [opt_bind].
  destruct (coin_new_spec sg enc_pk enc_sc sha3 _ _ _ _ _ _ _ Hn) as (rpk & _ & -> & Hcm). cbn [co_value co_tag co_blinding].
  rewrite fadd_0_r. destruct (commit_pair E0 (even_p prm) s0 _ _ _ _ Hh Hcm) as (s2 & -> & _). cbn [opt_bind]. rewrite Hp.
  destruct (veqb v0 c) eqn:E; [|reflexivity]. apply veqb_true in E. congruence.
Qed.
Print Assumptions C52_spend_partial.
Print Assumptions C52_single_leaf_refuted.

(** ** C53: a pour preserves value *)
(** [w] is any assignment of the wires that satisfies the circuit built by the verifier
    of a pour.  The opened vectors: 0 and 1 are the minted commitments, [k0] and [k1] the
    selected ones; position 0 is the value, position 1 the tag. *)
Theorem C53_conservation : forall (F0 F1 : PField) (P0 : SWCurve F1 F0) (P1 : SWCurve F0 F1) (FC : Field) (C : VSpace FC) (E0 : TrEnv P0) (enc1 : P1 -> bytes)
    (enc_pk : C -> bytes) (sha3 : bytes -> bytes) dbg (L : nat) (prm : SRParams P0 P1) t (po : Pour P0 P1 C) p0 p1 ro (t' : VState P0) (w : Var -> F0),
  pour_even_circuit E0 enc1 enc_pk sha3 dbg L prm t po p0 p1 (v_new ro) = Some t' -> satisfies w (v_cs t') ->
  exists k0 k1, (2 <= k0 < k1)%nat /\
    nth_error (v_vec t') 0 = Some (po_minted0 po, 2%nat) /\ nth_error (v_vec t') 1 = Some (po_minted1 po, 2%nat) /\
    nth_error (v_vec t') k0 = Some (pa_selected p0, L) /\ nth_error (v_vec t') k1 = Some (pa_selected p1, L) /\
    w (VectorCommit k0 1) = fN (le_value (sha3 (enc_pk (po_pk0 po)))) /\ w (VectorCommit k1 1) = fN (le_value (sha3 (enc_pk (po_pk1 po)))) /\
    w (VectorCommit 0 0) + w (VectorCommit 1 0) = w (VectorCommit k0 0) + w (VectorCommit k1 0) /\
    exists a0 a1, (a0 < 2 ^ 64)%N /\ (a1 < 2 ^ 64)%N /\ w (VectorCommit 0 0) = fN a0 /\ w (VectorCommit 1 0) = fN a1 /\
      (forall b0 b1, w (VectorCommit k0 0) = fN b0 -> w (VectorCommit k1 0) = fN b1 -> ((a0 + a1) mod pf_mod F0 = (b0 + b1) mod pf_mod F0)%N) /\
      (forall b0 b1, w (VectorCommit k0 0) = fN b0 -> w (VectorCommit k1 0) = fN b1 -> (b0 < 2 ^ 64)%N -> (b1 < 2 ^ 64)%N -> (2 ^ 65 <= pf_mod F0)%N -> (a0 + a1 = b0 + b1)%N).
Proof.
  intros F0 F1 P0 P1 FC C E0 enc1 enc_pk sha3 dbg L prm t po p0 p1 ro t' w Hc Hs. rewrite pour_even_dim in Hc.
  destruct (pour_sound E0 enc1 enc_pk sha3 _ _ _ _ _ _ _ _ _ _ _ _ _ _ Hc Hs) as (k0 & k1 & Hk & N0 & N1 & N2 & N3 & (a0 & a1 & A0 & A1 & W0 & W1 & Hb) & T0 & T1).
  exists k0, k1. split; [exact Hk|]. split; [exact N0|]. split; [exact N1|]. split; [exact N2|]. split; [exact N3|]. split; [exact T0|]. split; [exact T1|]. split; [rewrite W0, W1; exact Hb|].
  exists a0, a1. split; [exact A0|]. split; [exact A1|]. split; [exact W0|]. split; [exact W1|].
  assert (Hm : forall b0 b1, w (VectorCommit k0 0) = fN b0 -> w (VectorCommit k1 0) = fN b1 -> ((a0 + a1) mod pf_mod F0 = (b0 + b1) mod pf_mod F0)%N).
  { intros b0 b1 B0 B1. rewrite B0, B1, <- !fN_add in Hb. rewrite <- !pf_repr_of, Hb. reflexivity. }
  split; [exact Hm|]. intros b0 b1 B0 B1 X0 X1 X. specialize (Hm b0 b1 B0 B1). change (2 ^ 65)%N with (2 * 2 ^ 64)%N in X. rewrite !N.mod_small in Hm by lia. exact Hm.
Qed.
Print Assumptions C53_conservation.

(** ** C56: honest pours verify *)
(** Missing in the full claim: branching factor 1, single-leaf trees, and trees of height 1
    with more than 128 children (refuted below). *)
Theorem C56_complete_partial : forall (F0 F1 : PField) (P0 : SWCurve F1 F0) (P1 : SWCurve F0 F1) (FC : Field) (C : VSpace FC) (E0 : TrEnv P0) (E1 : TrEnv P1) (enc0 : P0 -> bytes) (enc1 : P1 -> bytes)
    (sg : SigScheme FC C) (enc_pk : C -> bytes) (enc_sc : FC -> bytes) (sha3 : bytes -> bytes)
    bp0 pc0 delta0 bp1 pc1 delta1 (prm : SRParams P0 P1) (L M : nat) (set : list P0) fuel height t oc dbg i0 i1 m0 m1 ro,
  sl_new bp0 pc0 delta0 = Some (even_p prm) -> sl_new bp1 pc1 delta1 = Some (odd_p prm) -> sw_a P0 = 0 -> sw_a P1 = 0 ->
  gens_wf bp0 -> (gens_capacity bp0 < 2 ^ 32)%nat -> gens_wf bp1 -> (gens_capacity bp1 < 2 ^ 32)%nat ->
  from_set fuel L M prm set height = TOk t -> (N.of_nat (L ^ t_height t) < 2 ^ 64)%N -> (0 < M)%nat -> t_height t <> 0%nat -> (2 <= L)%nat -> (L <= 128 \/ 2 <= t_height t)%nat ->
  honest_input sg enc_pk enc_sc sha3 oc L prm set t i0 -> honest_input sg enc_pk enc_sc sha3 oc L prm set t i1 ->
  honest_mint sg enc_pk enc_sc sha3 prm m0 -> honest_mint sg enc_pk enc_sc sha3 prm m1 ->
  (mi_value m0 + mi_value m1 = co_value (sp_coin i0) + co_value (sp_coin i1))%N ->
  exists s0' s1' path0 path1 c0 c1,
    pour_circuits E0 E1 enc0 enc1 sg enc_pk enc_sc sha3 dbg oc L pc0 pc1 prm t i0 i1 m0 m1 (p_new ro) (p_new ro) = Some (s0', s1', (path0, path1, c0, c1)) /\
    forall dbg0 rnd0 pf0 dbg1 rnd1 pf1, good_proof E0 dbg0 rnd0 pc0 bp0 s0' pf0 -> good_proof E1 dbg1 rnd1 pc1 bp1 s1' pf1 ->
    forall dbg' rr0 rr1, exists vt0 vt1,
      pour_verify E0 E1 enc0 enc1 enc_pk sha3 dbg' L prm t ro rr0 rr1 (mkPour pf0 pf1 path0 path1 (sp_pk i0) (sp_pk i1) c0 c1) = Some (vt0, vt1) /\
      batch_verify [vt0] [] pc0 bp0 = Some (Ok tt) /\ batch_verify [vt1] [] pc1 bp1 = Some (Ok tt).
Proof.
  intros F0 F1 P0 P1 FC C E0 E1 enc0 enc1 sg enc_pk enc_sc sha3 bp0 pc0 delta0 bp1 pc1 delta1 prm L M set fuel height t oc dbg i0 i1 m0 m1 ro Hsl0 Hsl1 Ha0 Ha1 W0 B0 W1 B1 Ht Hc HM Hh HL HD I0 I1 M0 M1 Hb.
  destruct (sl_new_good _ _ _ _ Hsl0) as (Hg0 & Eb0 & Ep0 & _), (sl_new_good _ _ _ _ Hsl1) as (Hg1 & Eb1 & Ep1 & _). rewrite <- Eb0, <- Ep0 in *. rewrite <- Eb1, <- Ep1 in *.
  destruct (pour_total E0 E1 enc0 enc1 sg enc_pk enc_sc sha3 dbg oc L M prm set fuel height t i0 i1 m0 m1 (p_new ro) (p_new ro) Hg0 Hg1 Ha0 Ha1 Ht Hc HM Hh I0 I1 M0 M1 Hb (honest_new _) (honest_new _)) as (s0' & s1' & [[[p0 p1] c0] c1] & R & H0 & H1 & D0 & D1).
  exists s0', s1', p0, p1, c0, c1. split; [exact R|]. intros dbg0 rnd0 pf0 dbg1 rnd1 pf1 G0 G1.
  exact (pour_accepted E0 E1 enc0 enc1 sg enc_pk enc_sc sha3 dbg oc L M prm set fuel height t i0 i1 m0 m1 ro s0' s1' p0 p1 c0 c1 dbg0 rnd0 pf0 dbg1 rnd1 pf1
    Hg0 Hg1 Ht Hc HM Hh HL HD (honest_tag _ _ _ _ _ _ _ _ _ _ I0) (honest_tag _ _ _ _ _ _ _ _ _ _ I1) R H0 H1 D0 D1 W0 B0 W1 B1 G0 G1).
Qed.
(** The whole transaction: [prove_pour] makes the proofs, serializes the pour and signs the
    bytes; the receiver decodes and verifies.  Hypotheses on the two parts not modelled:
    encodings of points and scalars round-trip, checking a signature gives a boolean and
    not an error. *)
Theorem C56_transaction_partial : forall (F0 F1 : PField) (P0 : SWCurve F1 F0) (P1 : SWCurve F0 F1) (FC : Field) (C : VSpace FC) (E0 : TrEnv P0) (E1 : TrEnv P1) (enc0 : P0 -> bytes) (enc1 : P1 -> bytes)
    (sg : SigScheme FC C) (enc_pk : C -> bytes) (enc_sc : FC -> bytes) (sha3 : bytes -> bytes)
    (q0 : Codec P0) (q1 : Codec P1) (z0 : Codec F0) (z1 : Codec F1) (qC : Codec C)
    bp0 pc0 delta0 bp1 pc1 delta1 (prm : SRParams P0 P1) (L M : nat) (set : list P0) fuel height t oc dbg i0 i1 m0 m1 rnd0 rnd1 k0 k1 ro tx,
  roundtrips q0 any -> roundtrips q1 any -> roundtrips z0 any -> roundtrips z1 any -> roundtrips qC any ->
  (forall pk msg sig, sg_verify sg pk msg sig <> None) ->
  sl_new bp0 pc0 delta0 = Some (even_p prm) -> sl_new bp1 pc1 delta1 = Some (odd_p prm) -> sw_a P0 = 0 -> sw_a P1 = 0 ->
  gens_wf bp0 -> (gens_capacity bp0 < 2 ^ 32)%nat -> gens_wf bp1 -> (gens_capacity bp1 < 2 ^ 32)%nat ->
  from_set fuel L M prm set height = TOk t -> (N.of_nat (L ^ t_height t) < 2 ^ 64)%N -> (0 < M)%nat -> t_height t <> 0%nat -> (2 <= L)%nat -> (L <= 128 \/ 2 <= t_height t)%nat ->
  honest_input sg enc_pk enc_sc sha3 oc L prm set t i0 -> honest_input sg enc_pk enc_sc sha3 oc L prm set t i1 ->
  honest_mint sg enc_pk enc_sc sha3 prm m0 -> honest_mint sg enc_pk enc_sc sha3 prm m1 ->
  (mi_value m0 + mi_value m1 = co_value (sp_coin i0) + co_value (sp_coin i1))%N ->
  prove_pour E0 E1 enc0 enc1 sg enc_pk enc_sc sha3 dbg oc L pc0 pc1 prm t (c_enc (pour_codec q0 q1 z0 z1 qC)) i0 i1 m0 m1 rnd0 rnd1 k0 k1 (p_new ro) (p_new ro) = Some tx ->
  exists po n0 n1, tx_pour tx = c_enc (pour_codec q0 q1 z0 z1 qC) po /\ po_pk0 po = sp_pk i0 /\ po_pk1 po = sp_pk i1 /\
    (pour_fits po -> Forall (fun P => P <> v0) (validated_points (op_degree_of n0) (po_even po)) -> Forall (fun P => P <> v0) (validated_points (op_degree_of n1) (po_odd po)) ->
     forall dbg' rr0 rr1, exists vt0 vt1,
       tx_verify E0 E1 enc0 enc1 sg enc_pk sha3 dbg' L prm t ro rr0 rr1 (c_dec (pour_codec q0 q1 z0 z1 qC)) tx = Some (vt0, vt1) /\
       batch_verify [vt0] [] pc0 bp0 = Some (Ok tt) /\ batch_verify [vt1] [] pc1 bp1 = Some (Ok tt)).
Proof.
  intros F0 F1 P0 P1 FC C E0 E1 enc0 enc1 sg enc_pk enc_sc sha3 q0 q1 z0 z1 qC bp0 pc0 delta0 bp1 pc1 delta1 prm L M set fuel height t oc dbg i0 i1 m0 m1 rnd0 rnd1 k0 k1 ro tx Q0 Q1 Z0 Z1 QC Hsg Hsl0 Hsl1 Ha0 Ha1 W0 B0 W1 B1 Ht Hc HM Hh HL HD I0 I1 M0 M1 Hb Hp.
  destruct (C56_complete_partial _ _ P0 P1 FC C E0 E1 enc0 enc1 sg enc_pk enc_sc sha3 bp0 pc0 delta0 bp1 pc1 delta1 prm L M set fuel height t oc dbg i0 i1 m0 m1 ro Hsl0 Hsl1 Ha0 Ha1 W0 B0 W1 B1 Ht Hc HM Hh HL HD I0 I1 M0 M1 Hb) as (s0' & s1' & p0 & p1 & c0 & c1 & R & K).
  destruct (sl_new_good _ _ _ _ Hsl0) as (_ & Eb0 & _ & _), (sl_new_good _ _ _ _ Hsl1) as (_ & Eb1 & _ & _).
  unfold prove_pour in Hp. rewrite R in Hp. cbn [opt_bind] in Hp. rewrite Eb0, Eb1 in Hp.
  destruct (r1cs_prove E0 dbg rnd0 pc0 bp0 s0') as [[[pf0 tr0]|]|] eqn:G0; try discriminate Hp. destruct (r1cs_prove E1 dbg rnd1 pc1 bp1 s1') as [[[pf1 tr1]|]|] eqn:G1; try discriminate Hp.
  destruct (sign_input sg enc_sc i0 k0 _) as [sig0|]; [|discriminate Hp]. cbn [opt_bind] in Hp. destruct (sign_input sg enc_sc i1 k1 _) as [sig1|]; [|discriminate Hp]. cbn [opt_bind] in Hp. apply Some_inj in Hp. subst tx. cbn [tx_pour].
  eexists _, (length (p_vec s0')), (length (p_vec s1')). split; [reflexivity|]. split; [reflexivity|]. split; [reflexivity|]. intros Hf N0 N1 dbg' rr0 rr1.
  destruct (K dbg rnd0 pf0 dbg rnd1 pf1 (conj (ex_intro _ tr0 G0) N0) (conj (ex_intro _ tr1 G1) N1) dbg' rr0 rr1) as (vt0 & vt1 & Kv & KB). exists vt0, vt1. split; [|exact KB].
  unfold tx_verify. cbn [tx_pour]. rewrite <- (app_nil_r (c_enc _ _)). rewrite (roundtrip_pour q0 q1 z0 z1 qC Q0 Q1 Z0 Z1 QC _ [] Hf). cbn [opt_bind po_pk0 po_pk1].
  unfold verify_signatures. rewrite app_nil_r. cbn [tx_pour tx_resp0 tx_chal0 tx_resp1 tx_chal1].
  destruct (sg_verify sg (sp_pk i0) _ _) as [ok0|] eqn:V0; [|destruct (Hsg _ _ _ V0)]. cbn [opt_bind]. destruct (sg_verify sg (sp_pk i1) _ _) as [ok1|] eqn:V1; [|destruct (Hsg _ _ _ V1)]. cbn [opt_bind]. exact Kv.
Qed.
(** In a tree of height 1 with more than 128 leaves below the root every honest pour makes
    the verifier panic: it takes the selected commitment to have as many entries as the
    branching factor and so pads its circuit to a larger size than the prover. *)
Theorem C56_wide_tree_refuted : forall (F0 F1 : PField) (P0 : SWCurve F1 F0) (P1 : SWCurve F0 F1) (FC : Field) (C : VSpace FC) (E0 : TrEnv P0) (E1 : TrEnv P1) (enc0 : P0 -> bytes) (enc1 : P1 -> bytes)
    (sg : SigScheme FC C) (enc_pk : C -> bytes) (enc_sc : FC -> bytes) (sha3 : bytes -> bytes)
    bp0 pc0 delta0 bp1 pc1 delta1 (prm : SRParams P0 P1) (L M : nat) (set : list P0) fuel height t oc dbg i0 i1 m0 m1 ro,
  sl_new bp0 pc0 delta0 = Some (even_p prm) -> sl_new bp1 pc1 delta1 = Some (odd_p prm) -> sw_a P0 = 0 -> sw_a P1 = 0 -> gens_wf bp0 -> (gens_capacity bp0 < 2 ^ 32)%nat ->
  from_set fuel L M prm set height = TOk t -> (N.of_nat (L ^ t_height t) < 2 ^ 64)%N -> (0 < M)%nat -> t_height t = 1%nat -> (128 < L)%nat ->
  honest_input sg enc_pk enc_sc sha3 oc L prm set t i0 -> honest_input sg enc_pk enc_sc sha3 oc L prm set t i1 ->
  honest_mint sg enc_pk enc_sc sha3 prm m0 -> honest_mint sg enc_pk enc_sc sha3 prm m1 ->
  (mi_value m0 + mi_value m1 = co_value (sp_coin i0) + co_value (sp_coin i1))%N ->
  exists s0' s1' path0 path1 c0 c1,
    pour_circuits E0 E1 enc0 enc1 sg enc_pk enc_sc sha3 dbg oc L pc0 pc1 prm t i0 i1 m0 m1 (p_new ro) (p_new ro) = Some (s0', s1', (path0, path1, c0, c1)) /\
    forall dbg0 rnd0 pf0 pf1 dbg' rr0 rr1, good_proof E0 dbg0 rnd0 pc0 bp0 s0' pf0 ->
      pour_verify E0 E1 enc0 enc1 enc_pk sha3 dbg' L prm t ro rr0 rr1 (mkPour pf0 pf1 path0 path1 (sp_pk i0) (sp_pk i1) c0 c1) = None.
Proof.
  intros F0 F1 P0 P1 FC C E0 E1 enc0 enc1 sg enc_pk enc_sc sha3 bp0 pc0 delta0 bp1 pc1 delta1 prm L M set fuel height t oc dbg i0 i1 m0 m1 ro Hsl0 Hsl1 Ha0 Ha1 W0 B0 Ht Hc HM Hh HL I0 I1 M0 M1 Hb.
  destruct (sl_new_good _ _ _ _ Hsl0) as (Hg0 & Eb0 & Ep0 & _), (sl_new_good _ _ _ _ Hsl1) as (Hg1 & Eb1 & Ep1 & _). rewrite <- Eb0, <- Ep0 in *. rewrite <- Ep1 in *.
  assert (Hh' : t_height t <> 0%nat) by (rewrite Hh; discriminate).
  destruct (pour_total E0 E1 enc0 enc1 sg enc_pk enc_sc sha3 dbg oc L M prm set fuel height t i0 i1 m0 m1 (p_new ro) (p_new ro) Hg0 Hg1 Ha0 Ha1 Ht Hc HM Hh' I0 I1 M0 M1 Hb (honest_new _) (honest_new _)) as (s0' & s1' & [[[p0 p1] c0] c1] & R & H0 & H1 & D0 & D1).
  exists s0', s1', p0, p1, c0, c1. split; [exact R|]. intros dbg0 rnd0 pf0 pf1 dbg' rr0 rr1 G0.
  exact (pour_rejected E0 E1 enc0 enc1 sg enc_pk enc_sc sha3 dbg oc L M prm set fuel height t i0 i1 m0 m1 ro s0' s1' p0 p1 c0 c1 dbg0 rnd0 pf0 pf1
    Hg0 Hg1 Ht Hc HM Hh HL (honest_tag _ _ _ _ _ _ _ _ _ _ I0) (honest_tag _ _ _ _ _ _ _ _ _ _ I1) R H0 D0 W0 B0 G0 dbg' rr0 rr1).
Qed.
(** With branching factor 1 the verifier reads past the end of the selected commitment. *)
Theorem C56_unary_tree_refuted : forall (F0 F1 : PField) (P0 : SWCurve F1 F0) (P1 : SWCurve F0 F1) (FC : Field) (C : VSpace FC) (E0 : TrEnv P0) (E1 : TrEnv P1) (enc0 : P0 -> bytes) (enc1 : P1 -> bytes)
    (enc_pk : C -> bytes) (sha3 : bytes -> bytes) dbg (L : nat) (prm : SRParams P0 P1) t ro rr0 rr1 (po : Pour P0 P1 C), (L < 2)%nat ->
  pour_verify E0 E1 enc0 enc1 enc_pk sha3 dbg L prm t ro rr0 rr1 po = None.
Proof.
  intros F0 F1 P0 P1 FC C E0 E1 enc0 enc1 enc_pk sha3 dbg L prm t ro rr0 rr1 po HL. unfold pour_verify.
  destruct (verification_commitments t (po_path0 po)) as [p0|]; [|reflexivity]. cbn [opt_bind]. destruct (verification_commitments t (po_path1 po)) as [p1|]; [|reflexivity]. cbn [opt_bind].
  destruct (pour_even_circuit E0 enc1 enc_pk sha3 dbg L prm t po p0 p1 (v_new ro)) as [t0|] eqn:R; [|reflexivity]. exfalso. rewrite pour_even_dim in R. apply pour_dim_two in R. lia.
Qed.
Print Assumptions C56_complete_partial.
Print Assumptions C56_transaction_partial.
Print Assumptions C56_wide_tree_refuted.
Print Assumptions C56_unary_tree_refuted.

(** ** C55: a pour can use one coin for both inputs *)
(** The two inputs are the same coin; its value is spent twice, and the pour verifies. *)
Theorem C55_same_coin_refuted : forall (F0 F1 : PField) (P0 : SWCurve F1 F0) (P1 : SWCurve F0 F1) (FC : Field) (C : VSpace FC) (E0 : TrEnv P0) (E1 : TrEnv P1) (enc0 : P0 -> bytes) (enc1 : P1 -> bytes)
    (sg : SigScheme FC C) (enc_pk : C -> bytes) (enc_sc : FC -> bytes) (sha3 : bytes -> bytes)
    bp0 pc0 delta0 bp1 pc1 delta1 (prm : SRParams P0 P1) (L M : nat) (set : list P0) fuel height t oc dbg i m0 m1 ro,
  sl_new bp0 pc0 delta0 = Some (even_p prm) -> sl_new bp1 pc1 delta1 = Some (odd_p prm) -> sw_a P0 = 0 -> sw_a P1 = 0 ->
  gens_wf bp0 -> (gens_capacity bp0 < 2 ^ 32)%nat -> gens_wf bp1 -> (gens_capacity bp1 < 2 ^ 32)%nat ->
  from_set fuel L M prm set height = TOk t -> (N.of_nat (L ^ t_height t) < 2 ^ 64)%N -> (0 < M)%nat -> t_height t <> 0%nat -> (2 <= L)%nat -> (L <= 128 \/ 2 <= t_height t)%nat ->
  honest_input sg enc_pk enc_sc sha3 oc L prm set t i ->
  honest_mint sg enc_pk enc_sc sha3 prm m0 -> honest_mint sg enc_pk enc_sc sha3 prm m1 -> (mi_value m0 + mi_value m1 = 2 * co_value (sp_coin i))%N ->
  exists s0' s1' path0 path1 c0 c1,
    pour_circuits E0 E1 enc0 enc1 sg enc_pk enc_sc sha3 dbg oc L pc0 pc1 prm t i i m0 m1 (p_new ro) (p_new ro) = Some (s0', s1', (path0, path1, c0, c1)) /\
    forall dbg0 rnd0 pf0 dbg1 rnd1 pf1, good_proof E0 dbg0 rnd0 pc0 bp0 s0' pf0 -> good_proof E1 dbg1 rnd1 pc1 bp1 s1' pf1 ->
    forall dbg' rr0 rr1, exists po vt0 vt1, po_pk0 po = po_pk1 po /\
      pour_verify E0 E1 enc0 enc1 enc_pk sha3 dbg' L prm t ro rr0 rr1 po = Some (vt0, vt1) /\
      batch_verify [vt0] [] pc0 bp0 = Some (Ok tt) /\ batch_verify [vt1] [] pc1 bp1 = Some (Ok tt).
Proof.
  intros F0 F1 P0 P1 FC C E0 E1 enc0 enc1 sg enc_pk enc_sc sha3 bp0 pc0 delta0 bp1 pc1 delta1 prm L M set fuel height t oc dbg i m0 m1 ro Hsl0 Hsl1 Ha0 Ha1 W0 B0 W1 B1 Ht Hc HM Hh HL HD I0 M0 M1 Hb.
  assert (Hb' : (mi_value m0 + mi_value m1 = co_value (sp_coin i) + co_value (sp_coin i))%N) by lia.
  destruct (C56_complete_partial _ _ P0 P1 FC C E0 E1 enc0 enc1 sg enc_pk enc_sc sha3 bp0 pc0 delta0 bp1 pc1 delta1 prm L M set fuel height t oc dbg i i m0 m1 ro Hsl0 Hsl1 Ha0 Ha1 W0 B0 W1 B1 Ht Hc HM Hh HL HD I0 I0 M0 M1 Hb') as (s0' & s1' & p0 & p1 & c0 & c1 & R & K).
  exists s0', s1', p0, p1, c0, c1. split; [exact R|]. intros dbg0 rnd0 pf0 dbg1 rnd1 pf1 G0 G1 dbg' rr0 rr1.
  destruct (K dbg0 rnd0 pf0 dbg1 rnd1 pf1 G0 G1 dbg' rr0 rr1) as (vt0 & vt1 & Kv & KB). eexists _, vt0, vt1. split; [|split; [exact Kv|exact KB]]. reflexivity.
Qed.
Print Assumptions C55_same_coin_refuted.

(** ** C54: bad signatures *)
(** Only an error of the signature check stops the verification. *)
Theorem C54_error_partial : forall (F0 F1 : PField) (P0 : SWCurve F1 F0) (P1 : SWCurve F0 F1) (FC : Field) (C : VSpace FC) (E0 : TrEnv P0) (E1 : TrEnv P1) (enc0 : P0 -> bytes) (enc1 : P1 -> bytes)
    (sg : SigScheme FC C) (enc_pk : C -> bytes) (sha3 : bytes -> bytes) dbg (L : nat) (prm : SRParams P0 P1) t ro rr0 rr1 dec_pour (tx : SignedTx FC) po rest,
  dec_pour (tx_pour tx) = Some (po, rest) ->
  sg_verify sg (po_pk0 po) (tx_pour tx) (tx_resp0 tx, tx_chal0 tx) = None \/ sg_verify sg (po_pk1 po) (tx_pour tx) (tx_resp1 tx, tx_chal1 tx) = None ->
  tx_verify E0 E1 enc0 enc1 sg enc_pk sha3 dbg L prm t ro rr0 rr1 dec_pour tx = None.
Proof.
  intros F0 F1 P0 P1 FC C E0 E1 enc0 enc1 sg enc_pk sha3 dbg L prm t ro rr0 rr1 dec_pour tx po rest Hd Hv. unfold tx_verify, verify_signatures. rewrite Hd. cbn [opt_bind].
  destruct Hv as [->| ->]; [reflexivity|]. destruct (sg_verify sg (po_pk0 po) _ _); reflexivity.
Qed.
(** A check that answers with a boolean has no influence: whatever the signatures in the
    transaction are, the result is the same. *)
Theorem C54_signature_refuted : forall (F0 F1 : PField) (P0 : SWCurve F1 F0) (P1 : SWCurve F0 F1) (FC : Field) (C : VSpace FC) (E0 : TrEnv P0) (E1 : TrEnv P1) (enc0 : P0 -> bytes) (enc1 : P1 -> bytes)
    (sg : SigScheme FC C) (enc_pk : C -> bytes) (sha3 : bytes -> bytes) dbg (L : nat) (prm : SRParams P0 P1) t ro rr0 rr1 dec_pour (tx : SignedTx FC) r0 e0 r1 e1,
  (forall pk msg sig, sg_verify sg pk msg sig <> None) ->
  tx_verify E0 E1 enc0 enc1 sg enc_pk sha3 dbg L prm t ro rr0 rr1 dec_pour (mkTx r0 e0 r1 e1 (tx_pour tx)) = tx_verify E0 E1 enc0 enc1 sg enc_pk sha3 dbg L prm t ro rr0 rr1 dec_pour tx.
Proof.
  intros F0 F1 P0 P1 FC C E0 E1 enc0 enc1 sg enc_pk sha3 dbg L prm t ro rr0 rr1 dec_pour tx r0 e0 r1 e1 Hsg. unfold tx_verify, verify_signatures. cbn [tx_pour tx_resp0 tx_chal0 tx_resp1 tx_chal1].
  destruct (dec_pour (tx_pour tx)) as [[po rest]|]; [|reflexivity]. cbn [opt_bind].
  repeat match goal with |- context [sg_verify sg ?a ?b ?c] => let H := fresh in destruct (sg_verify sg a b c) eqn:H; [|destruct (Hsg _ _ _ H)]; clear H; cbn [opt_bind] end. reflexivity.
Qed.
Print Assumptions C54_error_partial.
Print Assumptions C54_signature_refuted.

(** ** C63: bytes from the network make the verifier panic *)
Theorem C63_panic_refuted : forall (F0 F1 : PField) (P0 : SWCurve F1 F0) (P1 : SWCurve F0 F1) (FC : Field) (C : VSpace FC) (E0 : TrEnv P0) (E1 : TrEnv P1) (enc0 : P0 -> bytes) (enc1 : P1 -> bytes)
    (sg : SigScheme FC C) (enc_pk : C -> bytes) (sha3 : bytes -> bytes) dbg (L : nat) (prm : SRParams P0 P1) t ro rr0 rr1 dec_pour (tx : SignedTx FC),
  (* the bytes do not decode *)
  (dec_pour (tx_pour tx) = None -> tx_verify E0 E1 enc0 enc1 sg enc_pk sha3 dbg L prm t ro rr0 rr1 dec_pour tx = None) /\
  (forall po rest, dec_pour (tx_pour tx) = Some (po, rest) ->
   (* the number of points of a path does not alternate as it should below the root *)
   ((length (pa_odd (po_path0 po)) > length (pa_even (po_path0 po)) + 1)%nat -> tx_verify E0 E1 enc0 enc1 sg enc_pk sha3 dbg L prm t ro rr0 rr1 dec_pour tx = None) /\
   (* a proof has a point that is the identity *)
   (A_I1 (po_even po) = v0 -> tx_verify E0 E1 enc0 enc1 sg enc_pk sha3 dbg L prm t ro rr0 rr1 dec_pour tx = None)).
Proof.
  intros F0 F1 P0 P1 FC C E0 E1 enc0 enc1 sg enc_pk sha3 dbg L prm t ro rr0 rr1 dec_pour tx. unfold tx_verify. split; [intros ->; reflexivity|]. intros po rest ->. cbn [opt_bind].
  destruct (verify_signatures sg tx (po_pk0 po) (po_pk1 po)); [|split; reflexivity]. cbn [opt_bind]. split.
  - intros Hl. unfold pour_verify. assert (Hn : verification_commitments t (po_path0 po) = None).
    { unfold verification_commitments, guard. destruct t; [destruct (Nat.eqb_spec (length (pa_even (po_path0 po)) + 1) (length (pa_odd (po_path0 po))))|destruct (Nat.eqb_spec (length (pa_even (po_path0 po))) (length (pa_odd (po_path0 po))))]; (reflexivity || lia). }
    rewrite Hn. reflexivity.
  - intros Ha. unfold pour_verify. destruct (verification_commitments t (po_path0 po)) as [p0|]; [|reflexivity]. cbn [opt_bind]. destruct (verification_commitments t (po_path1 po)) as [p1|]; [|reflexivity]. cbn [opt_bind].
    destruct (pour_even_circuit E0 enc1 enc_pk sha3 dbg L prm t po p0 p1 (v_new ro)) as [t0|]; [|reflexivity]. cbn [opt_bind].
    destruct (v_scalars_and_points E0 dbg rr0 (po_even po) t0) as [[vt|]|] eqn:Ev; try reflexivity. exfalso.
    unfold v_scalars_and_points, guard, validate, validate_and_append_point in Ev. rewrite Ha, (veqb_refl (V := P0) v0) in Ev. destruct (_ || _)%bool in Ev; discriminate Ev.
Qed.
Print Assumptions C63_panic_refuted.

(** ** The hypotheses are satisfiable: Schnorr signatures and coins over the toy cycle *)
Definition sc139 (x : PF139) : bytes := enc_fp PM139 x.
(* test data or vocabulary of statements, no code modelled *)
Definition toy_pk_of (sk : PF139) : TC1 := vsmul sk (k139 1).
(* test data or vocabulary of statements, no code modelled *)
Definition toy_sig_hash (R : TC1) (msg : bytes) : PF139 := fN (toy_hash (ec1 R ++ msg)).
(* test data or vocabulary of statements, no code modelled *)
Definition toy_schnorr : SigScheme PF139 TC1 := mkSig (FC := PF139) (C := TC1)
  (fun sk msg k => let e := toy_sig_hash (toy_pk_of k) msg in Some (k - e * sk, e))
  (fun sig rnd => Some (fst sig - snd sig * fN (le_value rnd), snd sig))
  (fun pk rnd => Some (vadd pk (toy_pk_of (fN (le_value rnd)))))
  (fun pk msg sig => Some (feqb (toy_sig_hash (vadd (toy_pk_of (fst sig)) (vsmul (snd sig) pk)) msg) (snd sig))).
(* test data or vocabulary of statements, no code modelled *)
Definition toy_sha (b : bytes) : bytes := le_bytes 4 (toy_hash b).
(* test data or vocabulary of statements, no code modelled *)
Definition f139 (z : Z) : PF139 := fp_mk (p:=PM139) z.
(* test data or vocabulary of statements, no code modelled *)
Definition f163 (z : Z) : PF163 := fp_mk (p:=PM163) z.
(* test data or vocabulary of statements, no code modelled *)
Definition pos0 : BPGens TC0 := toy_gens PM163 256 1.
(* test data or vocabulary of statements, no code modelled *)
Definition pos1 : BPGens TC1 := toy_gens PM139 256 1.
Lemma cap_256 : (256 < 2 ^ 32)%nat.
Proof. apply (Nat.lt_le_trans _ (2 ^ 9)); [apply Nat.ltb_lt; vm_compute; reflexivity|apply Nat.pow_le_mono_r; lia]. Qed.
(* test data or vocabulary of statements, no code modelled *)
Definition toy_ro : Transcript := [Msg "ro"%string [3%N]].
(* test data or vocabulary of statements, no code modelled *)
Definition toy_spend (index : N) (coin : CoinT PF163 PF139) (sk : PF139) : Spending (F0 := PF163) (F1 := PF139) TC1 :=
  mkSpending (C := TC1) index coin (vadd (toy_pk_of sk) (toy_pk_of (fN (le_value (sc139 (co_pk_randomness coin)))))) sk toy_os (fun i => f163 (57 + 2 * Z.of_nat i)).
(* test data or vocabulary of statements, no code modelled *)
Definition toy_m0 (v : N) : Minting (F0 := PF163) TC1 := mkMinting (C := TC1) v (toy_pk_of (f139 33)) (f139 3) (f163 4).
(* test data or vocabulary of statements, no code modelled *)
Definition toy_m1 (v : N) : Minting (F0 := PF163) TC1 := mkMinting (C := TC1) v (toy_pk_of (f139 35)) (f139 5) (f163 6).
Notation toy_new := (coin_new toy_schnorr ec1 sc139 toy_sha).
Notation toy_input := (honest_input (P0 := TC0) (P1 := TC1) (C := TC1) toy_schnorr ec1 sc139 toy_sha).
Notation toy_hmint := (honest_mint (P0 := TC0) (P1 := TC1) (C := TC1) toy_schnorr ec1 sc139 toy_sha).
Notation toy_codec := (pour_codec (FC := PF139) (C := TC1) cP0 cP1 cS0 cS1 cP1).
Notation Sp := (Spending (F0 := PF163) (F1 := PF139) TC1).
(** Scalars of the path are admissible. *)
Definition path_ok (L : nat) (prm : SRParams TC0 TC1) (t : CurveTree TC0 TC1) (k : nat) (i : Sp) : bool :=
  match tree_witness true L t (N.of_nat k) 0 prm with Some (e, o) => adm_all (odd_p prm) (sp_os i) e && adm_all (even_p prm) (sp_es i) o | None => false end.
Lemma toy_input_ok L prm t set k value sk pkr b coin leaf : toy_new (even_p prm) value (toy_pk_of sk) pkr b = Some (coin, leaf) -> nth_error set k = Some leaf -> path_ok L prm t k (toy_spend (N.of_nat k) coin sk) = true ->
  toy_input true L prm set t (toy_spend (N.of_nat k) coin sk) /\ co_value coin = value.
Proof.
  intros Hn Hs Hp. unfold path_ok in Hp. destruct (tree_witness true L t (N.of_nat k) 0 prm) as [[e o]|] eqn:Hw; [|discriminate Hp]. apply andb_prop in Hp as [Ae Ao].
  destruct (coin_new_spec _ _ _ _ _ _ _ _ _ _ _ Hn) as (rpk & Hr & Hc & _). split; [|subst coin; reflexivity].
  exists k, leaf, (toy_pk_of sk), e, o. split; [reflexivity|]. split; [exact Hs|]. cbn [toy_spend sp_coin sp_pk sp_os sp_es] in *.
  assert (co_value coin = value /\ co_pk_randomness coin = pkr /\ co_blinding coin = b) as (-> & -> & ->) by (subst coin; repeat split). split; [exact Hn|]. split; [reflexivity|]. split; [exact Hw|].
  split; [exact (adm_all_spec _ _ _ Ae)|exact (adm_all_spec _ _ _ Ao)].
Qed.
(** A computation about a tree with two coins, of values 30 and 12. *)
Definition with_purse (L : nat) (purse : TC0 -> TC0 -> list TC0) (k0 k1 : nat) (f : SRParams TC0 TC1 -> CurveTree TC0 TC1 -> Sp -> Sp -> bool) : bool :=
  match sl_new pos0 toy_pcg toy_delta, sl_new pos1 toy_pcg1 toy_delta1 with
  | Some a, Some b => let prm := mkSRP a b in
     match toy_new a 30 (toy_pk_of (f139 17)) (f139 21) (f163 8), toy_new a 12 (toy_pk_of (f139 19)) (f139 23) (f163 9) with
     | Some (x0, c0), Some (x1, c1) =>
       match from_set 6 L 1 prm (purse c0 c1) None with
       | TOk t => f prm t (toy_spend (N.of_nat k0) x0 (f139 17)) (toy_spend (N.of_nat k1) x1 (f139 19))
       | _ => false end
     | _, _ => false end
  | _, _ => false end.
Lemma with_purse_spec L purse k0 k1 f : (forall a b, nth_error (purse a b) k0 = Some a /\ nth_error (purse a b) k1 = Some b) ->
  with_purse L purse k0 k1 (fun prm t i0 i1 => path_ok L prm t k0 i0 && path_ok L prm t k1 i1 && f prm t i0 i1)%bool = true ->
  exists prm t set i0 i1, sl_new pos0 toy_pcg toy_delta = Some (even_p prm) /\ sl_new pos1 toy_pcg1 toy_delta1 = Some (odd_p prm) /\ from_set 6 L 1 prm set None = TOk t /\
    toy_input true L prm set t i0 /\ toy_input true L prm set t i1 /\ co_value (sp_coin i0) = 30%N /\ co_value (sp_coin i1) = 12%N /\ f prm t i0 i1 = true.
Proof.
  intros Hpos H. unfold with_purse in H. destruct (sl_new pos0 toy_pcg toy_delta) as [a|]; [|discriminate H]. destruct (sl_new pos1 toy_pcg1 toy_delta1) as [b|]; [|discriminate H]. cbv zeta in H.
  destruct (toy_new a 30 _ _ _) as [[x0 c0]|] eqn:N0; [|discriminate H]. destruct (toy_new a 12 _ _ _) as [[x1 c1]|] eqn:N1; [|discriminate H].
  destruct (from_set 6 L 1 (mkSRP a b) (purse c0 c1) None) as [t| |] eqn:Et; try discriminate H. apply andb_prop in H as [H Hf]. apply andb_prop in H as [A0 A1]. destruct (Hpos c0 c1) as [S0 S1].
  destruct (toy_input_ok L (mkSRP a b) t (purse c0 c1) k0 _ _ _ _ _ _ N0 S0 A0) as [I0 V0]. destruct (toy_input_ok L (mkSRP a b) t (purse c0 c1) k1 _ _ _ _ _ _ N1 S1 A1) as [I1 V1].
  exists (mkSRP a b), t, (purse c0 c1), (toy_spend (N.of_nat k0) x0 (f139 17)), (toy_spend (N.of_nat k1) x1 (f139 19)). split; [reflexivity|]. split; [reflexivity|]. split; [exact Et|]. split; [exact I0|]. split; [exact I1|]. split; [exact V0|]. split; [exact V1|exact Hf].
Qed.
(* test data or vocabulary of statements, no code modelled *)
Definition mint_ok (prm : SRParams TC0 TC1) (m : Minting (F0 := PF163) TC1) : bool := (mi_value m <? 2 ^ 64)%N && is_some (toy_new (even_p prm) (mi_value m) (mi_pk m) (mi_pkr m) (mi_blinding m)).
Lemma mint_ok_spec prm m : mint_ok prm m = true -> toy_hmint prm m.
Proof.
  unfold mint_ok. intros H. apply andb_prop in H as [Hv Hm]. apply N.ltb_lt in Hv. split; [exact Hv|]. destruct (toy_new (even_p prm) _ _ _ _) as [[coin c]|] eqn:E; [|discriminate Hm]. exists coin, c. reflexivity.
Qed.
(* test data or vocabulary of statements, no code modelled *)
Definition toy_purse (c0 c1 : TC0) : list TC0 := [k163 20; c0; k163 42; c1; k163 64].

(** Five leaves, height 3; the coins at positions 1 and 3 are poured into 40 and 2. *)
Lemma purse_demo : exists prm t set i0 i1, sl_new pos0 toy_pcg toy_delta = Some (even_p prm) /\ sl_new pos1 toy_pcg1 toy_delta1 = Some (odd_p prm) /\ sw_a TC0 = 0 /\ sw_a TC1 = 0 /\
  from_set 6 2 1 prm set None = TOk t /\ t_height t = 3%nat /\ toy_input true 2 prm set t i0 /\ toy_input true 2 prm set t i1 /\ co_value (sp_coin i0) = 30%N /\ co_value (sp_coin i1) = 12%N /\
  toy_hmint prm (toy_m0 40) /\ toy_hmint prm (toy_m1 2) /\ toy_hmint prm (toy_m0 57) /\ toy_hmint prm (toy_m1 3).
Proof.
  destruct (with_purse_spec 2 toy_purse 1 3 (fun prm t i0 i1 => (t_height t =? 3)%nat && mint_ok prm (toy_m0 40) && mint_ok prm (toy_m1 2) && mint_ok prm (toy_m0 57) && mint_ok prm (toy_m1 3))%bool
    ltac:(intros a b; split; reflexivity) ltac:(vm_compute; reflexivity)) as (prm & t & set & i0 & i1 & H0 & H1 & Ht & I0 & I1 & V0 & V1 & H).
  apply andb_prop in H as [H M3]. apply andb_prop in H as [H M2]. apply andb_prop in H as [H M1]. apply andb_prop in H as [Eh M0]. apply Nat.eqb_eq in Eh.
  exists prm, t, set, i0, i1. split; [exact H0|]. split; [exact H1|]. split; [reflexivity|]. split; [reflexivity|]. split; [exact Ht|]. split; [exact Eh|]. split; [exact I0|]. split; [exact I1|]. split; [exact V0|]. split; [exact V1|].
  split; [apply mint_ok_spec, M0|]. split; [apply mint_ok_spec, M1|]. split; [apply mint_ok_spec, M2|apply mint_ok_spec, M3].
Qed.

(** [C52]: the coin of value 30 is spent. *)
Example C52_demo : exists (prm : SRParams TC0 TC1) t set (i : Sp) leaf s0' s1' p v r, from_set 6 2 1 prm set None = TOk t /\ t_height t = 3%nat /\ nth_error set (N.to_nat (sp_index i)) = Some leaf /\
  prove_spend EE0 EE1 ec0 ec1 true 2 (sp_coin i) (sp_index i) toy_pcg toy_pcg1 prm t (sp_os i) (sp_es i) (p_new toy_ro) (p_new toy_ro) = Some (s0', s1', (p, v)) /\ p_asg s0' v = fN 30 /\
  pa_selected p = vadd leaf (vsmul r (pcB_blinding toy_pcg)).
Proof.
  destruct purse_demo as (prm & t & set & i0 & i1 & H0 & H1 & A0 & A1 & Ht & Eh & I0 & I1 & V0 & V1 & _). destruct I0 as (k & leaf & pk & e & o & Ki & Kn & Kc & _ & Kw & Ae & Ao).
  destruct (C52_spend_partial _ _ TC0 TC1 _ _ EE0 EE1 ec0 ec1 toy_schnorr ec1 sc139 toy_sha pos0 toy_pcg toy_delta pos1 toy_pcg1 toy_delta1 prm 2 1 set 6 None t true k _ pk _ _ _ leaf e o (sp_os i0) (sp_es i0) (p_new toy_ro) (p_new toy_ro)
    H0 H1 A0 A1 Ht ltac:(rewrite Eh; vm_compute; reflexivity) ltac:(lia) ltac:(rewrite Eh; discriminate) Kc Kn Kw Ae Ao (honest_new _) (honest_new _)) as [(s0' & s1' & p & v & r & R & W & Hs) _].
  exists prm, t, set, i0, leaf, s0', s1', p, v, r. split; [exact Ht|]. split; [exact Eh|]. rewrite Ki. split; [rewrite Nnat.Nat2N.id; exact Kn|]. split; [exact R|]. split; [rewrite W, V0; reflexivity|exact Hs].
Qed.
Example C52_single_leaf_demo : match sl_new pos0 toy_pcg toy_delta with Some a => match toy_new a 30 (toy_pk_of (f139 17)) (f139 21) (f163 8) with Some (_, c) => negb (veqb c v0) | None => false end | None => false end = true.
Proof. vm_compute. reflexivity. Qed.

(** [C56]: the circuits are built; any proofs of them verify. *)
Example C56_demo : exists (prm : SRParams TC0 TC1) t i0 i1 s0' s1' path0 path1 c0 c1, t_height t = 3%nat /\
    pour_circuits EE0 EE1 ec0 ec1 toy_schnorr ec1 sc139 toy_sha true true 2 toy_pcg toy_pcg1 prm t i0 i1 (toy_m0 40) (toy_m1 2) (p_new toy_ro) (p_new toy_ro) = Some (s0', s1', (path0, path1, c0, c1)) /\
    forall dbg0 rnd0 pf0 dbg1 rnd1 pf1, good_proof EE0 dbg0 rnd0 toy_pcg pos0 s0' pf0 -> good_proof EE1 dbg1 rnd1 toy_pcg1 pos1 s1' pf1 ->
    forall dbg' rr0 rr1, exists vt0 vt1, pour_verify EE0 EE1 ec0 ec1 ec1 toy_sha dbg' 2 prm t toy_ro rr0 rr1 (mkPour (P0 := TC0) (P1 := TC1) (C := TC1) pf0 pf1 path0 path1 (sp_pk i0) (sp_pk i1) c0 c1) = Some (vt0, vt1) /\
      batch_verify [vt0] [] toy_pcg pos0 = Some (Ok tt) /\ batch_verify [vt1] [] toy_pcg1 pos1 = Some (Ok tt).
Proof.
  destruct purse_demo as (prm & t & set & i0 & i1 & H0 & H1 & A0 & A1 & Ht & Eh & I0 & I1 & V0 & V1 & M0 & M1 & _).
  destruct (C56_complete_partial _ _ TC0 TC1 _ _ EE0 EE1 ec0 ec1 toy_schnorr ec1 sc139 toy_sha pos0 toy_pcg toy_delta pos1 toy_pcg1 toy_delta1 prm 2 1 set 6 None t true true i0 i1 (toy_m0 40) (toy_m1 2) toy_ro
    H0 H1 A0 A1 (gens_wf_new _ _ _ _ _) cap_256 (gens_wf_new _ _ _ _ _) cap_256 Ht ltac:(rewrite Eh; vm_compute; reflexivity) ltac:(lia) ltac:(rewrite Eh; discriminate) ltac:(lia) ltac:(left; lia) I0 I1 M0 M1
    ltac:(rewrite V0, V1; reflexivity)) as (s0' & s1' & p0 & p1 & c0 & c1 & R & K).
  exists prm, t, i0, i1, s0', s1', p0, p1, c0, c1. split; [exact Eh|]. split; [exact R|exact K].
Qed.
(** [C53]: the assignment of the honest prover satisfies the verifier's circuit. *)
Example C53_demo : exists (prm : SRParams TC0 TC1) t (po : Pour TC0 TC1 TC1) p0 p1 (t' : VState TC0) i0 i1 s0' s1' out, t_height t = 3%nat /\
  pour_circuits EE0 EE1 ec0 ec1 toy_schnorr ec1 sc139 toy_sha true true 2 toy_pcg toy_pcg1 prm t i0 i1 (toy_m0 40) (toy_m1 2) (p_new toy_ro) (p_new toy_ro) = Some (s0', s1', out) /\
  pour_even_circuit EE0 ec1 ec1 toy_sha true 2 prm t po p0 p1 (v_new toy_ro) = Some t' /\ satisfies (p_asg s0') (v_cs t').
Proof.
  destruct purse_demo as (prm & t & set & i0 & i1 & H0 & H1 & A0 & A1 & Ht & Eh & I0 & I1 & V0 & V1 & M0 & M1 & _).
  destruct (sl_new_good _ _ _ _ H0) as (Hg0 & _ & Ep0 & _), (sl_new_good _ _ _ _ H1) as (Hg1 & _ & Ep1 & _).
  assert (Hc : (N.of_nat (2 ^ t_height t) < 2 ^ 64)%N) by (rewrite Eh; vm_compute; reflexivity). assert (Hh : t_height t <> 0%nat) by (rewrite Eh; discriminate).
  assert (Hb : (mi_value (toy_m0 40) + mi_value (toy_m1 2) = co_value (sp_coin i0) + co_value (sp_coin i1))%N) by (rewrite V0, V1; reflexivity).
  destruct (pour_total EE0 EE1 ec0 ec1 toy_schnorr ec1 sc139 toy_sha true true 2 1 prm set 6 None t i0 i1 (toy_m0 40) (toy_m1 2) (p_new toy_ro) (p_new toy_ro) Hg0 Hg1 A0 A1 Ht Hc ltac:(lia) Hh I0 I1 M0 M1 Hb (honest_new _) (honest_new _)) as (s0' & s1' & [[[p0 p1] c0] c1] & R & Q0 & Q1 & D0 & D1).
  destruct (pour_lockstep EE0 EE1 ec0 ec1 toy_schnorr ec1 sc139 toy_sha true true 2 1 prm set 6 None t i0 i1 (toy_m0 40) (toy_m1 2) toy_ro toy_ro _ _ _ _ _ _ _ _ _ _ Hg0 Hg1 Ht Hc ltac:(lia) Hh
    (honest_tag _ _ _ _ _ _ _ _ _ _ I0) (honest_tag _ _ _ _ _ _ _ _ _ _ I1) (ses_new EE0 _ _ toy_ro) (ses_new EE1 _ _ toy_ro) R) as (p0' & p1' & t0' & t1' & _ & _ & Hv & _ & Hs & _).
  exists prm, t, (mkPour (P0 := TC0) (P1 := TC1) (C := TC1) (toy_proof true) toy_odd_proof p0 p1 (sp_pk i0) (sp_pk i1) c0 c1), p0', p1', t0', i0, i1, s0', s1', (p0, p1, c0, c1).
  split; [exact Eh|]. rewrite <- Ep0, <- Ep1. split; [exact R|]. rewrite pour_even_dim. split; [exact Hv|].
  rewrite <- (proj1 (session_same _ _ _ _ _ _ Hs)). apply honest_satisfies, Q0.
Qed.
(* test data or vocabulary of statements, no code modelled *)
Definition toy_tx (prm : SRParams TC0 TC1) t (i0 i1 : Sp) (v0 v1 : N) : option (SignedTx PF139) :=
  prove_pour EE0 EE1 ec0 ec1 toy_schnorr ec1 sc139 toy_sha true true 2 toy_pcg toy_pcg1 prm t (c_enc toy_codec) i0 i1 (toy_m0 v0) (toy_m1 v1) (toy_rnd PM163) (toy_rnd PM139) (f139 7) (f139 8) (p_new toy_ro) (p_new toy_ro).
(* test data or vocabulary of statements, no code modelled *)
Definition tx_ok (prm : SRParams TC0 TC1) t (tx : SignedTx PF139) : bool :=
  match tx_verify EE0 EE1 ec0 ec1 toy_schnorr ec1 toy_sha true 2 prm t toy_ro (f163 5) (f139 5) (c_dec toy_codec) tx with
  | Some (vt0, vt1) => accepted (batch_verify [vt0] [] toy_pcg pos0) && accepted (batch_verify [vt1] [] toy_pcg1 pos1) | None => false end.
(** Both signatures, and whether the two public keys are equal. *)
Definition tx_facts (tx : SignedTx PF139) : option (bool * bool * bool) :=
  match c_dec toy_codec (tx_pour tx) with
  | Some (po, _) => match sg_verify toy_schnorr (po_pk0 po) (tx_pour tx) (tx_resp0 tx, tx_chal0 tx), sg_verify toy_schnorr (po_pk1 po) (tx_pour tx) (tx_resp1 tx, tx_chal1 tx) with
     | Some a, Some b => Some (a, b, veqb (po_pk0 po) (po_pk1 po)) | _, _ => None end
  | None => None end.
(* test data or vocabulary of statements, no code modelled *)
Definition no_sig (tx : SignedTx PF139) : SignedTx PF139 := mkTx (f139 1) (f139 2) (f139 3) (f139 4) (tx_pour tx).
(* test data or vocabulary of statements, no code modelled *)
Definition forged (prm : SRParams TC0 TC1) t (i0 i1 : Sp) : bool :=
  match toy_tx prm t i0 i1 40 2 with
  | Some tx => tx_ok prm t tx && match tx_facts tx, tx_facts (no_sig tx) with Some (true, true, false), Some (false, false, false) => true | _, _ => false end && tx_ok prm t (no_sig tx)
  | None => false end.
(** [C56_transaction_partial], [C54]: the transaction made by [prove_pour] has two valid signatures and is accepted.
    So is the one with the same bytes and two signatures that are not valid.  The run takes a minute of the
    virtual machine, so it is a test made when this file is compiled (the definition holds its result), not a
    proof. *)
Definition C54_forged_value : bool := Eval vm_compute in
  with_purse 2 toy_purse 1 3 (fun prm t i0 i1 => path_ok 2 prm t 1 i0 && path_ok 2 prm t 3 i1 && forged prm t i0 i1)%bool.
Example C54_forged_test : C54_forged_value = true.
Proof. reflexivity. Qed.
(** [C55]: the coin of value 30 used twice; 57 and 3 are minted. *)
Example C55_demo : exists (prm : SRParams TC0 TC1) t i s0' s1' path0 path1 c0 c1, co_value (sp_coin i) = 30%N /\
    pour_circuits EE0 EE1 ec0 ec1 toy_schnorr ec1 sc139 toy_sha true true 2 toy_pcg toy_pcg1 prm t i i (toy_m0 57) (toy_m1 3) (p_new toy_ro) (p_new toy_ro) = Some (s0', s1', (path0, path1, c0, c1)).
Proof.
  destruct purse_demo as (prm & t & set & i0 & i1 & H0 & H1 & A0 & A1 & Ht & Eh & I0 & _ & V0 & _ & _ & _ & M0 & M1).
  destruct (C55_same_coin_refuted _ _ TC0 TC1 _ _ EE0 EE1 ec0 ec1 toy_schnorr ec1 sc139 toy_sha pos0 toy_pcg toy_delta pos1 toy_pcg1 toy_delta1 prm 2 1 set 6 None t true true i0 (toy_m0 57) (toy_m1 3) toy_ro
    H0 H1 A0 A1 (gens_wf_new _ _ _ _ _) cap_256 (gens_wf_new _ _ _ _ _) cap_256 Ht ltac:(rewrite Eh; vm_compute; reflexivity) ltac:(lia) ltac:(rewrite Eh; discriminate) ltac:(lia) ltac:(left; lia) I0 M0 M1
    ltac:(rewrite V0; reflexivity)) as (s0' & s1' & p0 & p1 & c0 & c1 & R & _).
  exists prm, t, i0, s0', s1', p0, p1, c0, c1. split; [exact V0|exact R].
Qed.
(** The whole transaction, again as a test when this file is compiled. *)
Definition C55_run_value : bool := Eval vm_compute in
  with_purse 2 toy_purse 1 3 (fun prm t i0 _ => match toy_tx prm t i0 i0 57 3 with
  | Some tx => tx_ok prm t tx && match tx_facts tx with Some (true, true, true) => true | _ => false end | None => false end).
Example C55_run_test : C55_run_value = true.
Proof. reflexivity. Qed.
(** [C63]: bytes that do not decode. *)
Example C63_demo : is_some (c_dec toy_codec [1; 2; 3]%N) = false.
Proof. vm_compute. reflexivity. Qed.
(** [C56_wide_tree_refuted]: three leaves below a root with 129 children.  The circuits are
    built and every even proof makes the verifier panic. *)
Definition wide_purse (c0 c1 : TC0) : list TC0 := [c0; k163 42; c1].
Example C56_wide_demo : exists (prm : SRParams TC0 TC1) t i0 i1 s0' s1' path0 path1 c0 c1, t_height t = 1%nat /\
    pour_circuits EE0 EE1 ec0 ec1 toy_schnorr ec1 sc139 toy_sha true true 129 toy_pcg toy_pcg1 prm t i0 i1 (toy_m0 40) (toy_m1 2) (p_new toy_ro) (p_new toy_ro) = Some (s0', s1', (path0, path1, c0, c1)) /\
    forall pf0, good_proof EE0 true (toy_rnd PM163) toy_pcg pos0 s0' pf0 ->
    forall pf1 rr0 rr1, pour_verify EE0 EE1 ec0 ec1 ec1 toy_sha true 129 prm t toy_ro rr0 rr1 (mkPour (P0 := TC0) (P1 := TC1) (C := TC1) pf0 pf1 path0 path1 (sp_pk i0) (sp_pk i1) c0 c1) = None.
Proof.
  destruct (with_purse_spec 129 wide_purse 0 2 (fun prm t _ _ => (t_height t =? 1)%nat && mint_ok prm (toy_m0 40) && mint_ok prm (toy_m1 2))%bool
    ltac:(intros a b; split; reflexivity) ltac:(vm_compute; reflexivity)) as (prm & t & set & i0 & i1 & H0 & H1 & Ht & I0 & I1 & V0 & V1 & H).
  apply andb_prop in H as [H M1]. apply andb_prop in H as [Eh M0]. apply Nat.eqb_eq in Eh.
  destruct (C56_wide_tree_refuted _ _ TC0 TC1 _ _ EE0 EE1 ec0 ec1 toy_schnorr ec1 sc139 toy_sha pos0 toy_pcg toy_delta pos1 toy_pcg1 toy_delta1 prm 129 1 set 6 None t true true i0 i1 (toy_m0 40) (toy_m1 2) toy_ro
    H0 H1 eq_refl eq_refl (gens_wf_new _ _ _ _ _) cap_256 Ht ltac:(rewrite Eh; vm_compute; reflexivity) ltac:(lia) Eh ltac:(lia) I0 I1 (mint_ok_spec _ _ M0) (mint_ok_spec _ _ M1)
    ltac:(rewrite V0, V1; reflexivity)) as (s0' & s1' & p0 & p1 & c0 & c1 & R & K).
  exists prm, t, i0, i1, s0', s1', p0, p1, c0, c1. split; [exact Eh|]. split; [exact R|]. intros pf0 G pf1 rr0 rr1. exact (K true (toy_rnd PM163) pf0 pf1 true rr0 rr1 G).
Qed.
(** Such a proof, with points that are not the identity, is made (a test when this file is compiled). *)
Definition C56_wide_value : bool := Eval vm_compute in
  with_purse 129 wide_purse 0 2 (fun prm t i0 i1 =>
  match pour_circuits EE0 EE1 ec0 ec1 toy_schnorr ec1 sc139 toy_sha true true 129 toy_pcg toy_pcg1 prm t i0 i1 (toy_m0 40) (toy_m1 2) (p_new toy_ro) (p_new toy_ro) with
  | Some (s0, s1, _) => match r1cs_prove EE0 true (toy_rnd PM163) toy_pcg pos0 s0 with Some (Ok (pf, _)) => nz_points (length (p_vec s0)) pf | _ => false end
  | None => false end).
Example C56_wide_test : C56_wide_value = true.
Proof. reflexivity. Qed.
