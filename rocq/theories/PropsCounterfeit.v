(** * Coins out of nothing: C69 *)
From Verif Require Export ForgePour PropsCoin.
From Verif Require Import CSProofs UtilProofs Lockstep CSMore R1CS R1CSSpec R1CSProofs R1CSMain Toy ToyCurve PropsGadgets PropsRerand PropsSelRerand PropsSelBatch.
Local Open Scope F_scope.

(** ** C69: only coins of the tree can be spent *)
(** Refuted: in every tree of height at least one somebody who owns no coin mints any two
    coins.  The inputs are two made-up coins with values of their choice and keys of their
    choice, pretended to be at the position of any leaf ([fake_ok]).  The pour is accepted. *)
Theorem C69_counterfeit_refuted : forall (F0 F1 : PField) (P0 : SWCurve F1 F0) (P1 : SWCurve F0 F1) (FC : Field) (C : VSpace FC) (E0 : TrEnv P0) (E1 : TrEnv P1) (enc0 : P0 -> bytes) (enc1 : P1 -> bytes)
    (sg : SigScheme FC C) (enc_pk : C -> bytes) (enc_sc : FC -> bytes) (sha3 : bytes -> bytes)
    bp0 pc0 delta0 bp1 pc1 delta1 (prm : SRParams P0 P1) (L M : nat) (set : list P0) fuel height t oc dbg k0 k1 m0 m1 ro,
  sl_new bp0 pc0 delta0 = Some (even_p prm) -> sl_new bp1 pc1 delta1 = Some (odd_p prm) -> sw_a P0 = 0 -> sw_a P1 = 0 ->
  gens_wf bp0 -> (gens_capacity bp0 < 2 ^ 32)%nat -> gens_wf bp1 -> (gens_capacity bp1 < 2 ^ 32)%nat ->
  from_set fuel L M prm set height = TOk t -> (N.of_nat (L ^ t_height t) < 2 ^ 64)%N -> (0 < M)%nat -> t_height t <> 0%nat -> (2 <= L)%nat -> (L <= 128 \/ 2 <= t_height t)%nat ->
  fake_ok enc_pk sha3 oc L prm set t k0 -> fake_ok enc_pk sha3 oc L prm set t k1 ->
  honest_mint sg enc_pk enc_sc sha3 prm m0 -> honest_mint sg enc_pk enc_sc sha3 prm m1 ->
  fN (mi_value m0) + fN (mi_value m1) = fk_value k0 + fk_value k1 ->
  exists s0' s1' path0 path1 c0 c1,
    forge_pour E0 E1 enc0 enc1 sg enc_pk enc_sc sha3 dbg oc L prm t k0 k1 m0 m1 (p_new ro) (p_new ro) = Some (s0', s1', (path0, path1, c0, c1)) /\
    forall dbg0 rnd0 pf0 dbg1 rnd1 pf1, good_proof E0 dbg0 rnd0 pc0 bp0 s0' pf0 -> good_proof E1 dbg1 rnd1 pc1 bp1 s1' pf1 ->
    forall dbg' rr0 rr1, exists vt0 vt1,
      pour_verify E0 E1 enc0 enc1 enc_pk sha3 dbg' L prm t ro rr0 rr1 (mkPour pf0 pf1 path0 path1 (fk_pk k0) (fk_pk k1) c0 c1) = Some (vt0, vt1) /\
      batch_verify [vt0] [] pc0 bp0 = Some (Ok tt) /\ batch_verify [vt1] [] pc1 bp1 = Some (Ok tt).
Proof.
  intros F0 F1 P0 P1 FC C E0 E1 enc0 enc1 sg enc_pk enc_sc sha3 bp0 pc0 delta0 bp1 pc1 delta1 prm L M set fuel height t oc dbg k0 k1 m0 m1 ro Hsl0 Hsl1 Ha0 Ha1 W0 B0 W1 B1 Ht Hc HM Hh HL HD I0 I1 M0 M1 Hb.
  destruct (sl_new_good _ _ _ _ Hsl0) as (Hg0 & Eb0 & Ep0 & _), (sl_new_good _ _ _ _ Hsl1) as (Hg1 & Eb1 & Ep1 & _). rewrite <- Eb0, <- Ep0 in *. rewrite <- Eb1, <- Ep1 in *.
  destruct (forge_pour_total E0 E1 enc0 enc1 sg enc_pk enc_sc sha3 dbg oc L M prm set fuel height t k0 k1 m0 m1 (p_new ro) (p_new ro) Hg0 Hg1 Ha0 Ha1 Ht Hc HM Hh I0 I1 M0 M1 Hb (honest_new _) (honest_new _)) as (s0' & s1' & [[[p0 p1] c0] c1] & R & H0 & H1 & D0 & D1).
  exists s0', s1', p0, p1, c0, c1. split; [exact R|]. intros dbg0 rnd0 pf0 dbg1 rnd1 pf1 G0 G1.
  exact (forge_pour_accepted E0 E1 enc0 enc1 sg enc_pk enc_sc sha3 dbg oc L M prm set fuel height t k0 k1 m0 m1 ro s0' s1' p0 p1 c0 c1 dbg0 rnd0 pf0 dbg1 rnd1 pf1
    Hg0 Hg1 Ht Hc HM Hh HL HD I0 I1 R H0 H1 D0 D1 W0 B0 W1 B1 G0 G1).
Qed.
(** The same for a whole transaction: the pour is serialized and signed with any signatures
    that checking does not answer with an error; the attacker chose the keys, so valid ones
    can be made. *)
Theorem C69_transaction_refuted : forall (F0 F1 : PField) (P0 : SWCurve F1 F0) (P1 : SWCurve F0 F1) (FC : Field) (C : VSpace FC) (E0 : TrEnv P0) (E1 : TrEnv P1) (enc0 : P0 -> bytes) (enc1 : P1 -> bytes)
    (sg : SigScheme FC C) (enc_pk : C -> bytes) (enc_sc : FC -> bytes) (sha3 : bytes -> bytes)
    (q0 : Codec P0) (q1 : Codec P1) (z0 : Codec F0) (z1 : Codec F1) (qC : Codec C)
    bp0 pc0 delta0 bp1 pc1 delta1 (prm : SRParams P0 P1) (L M : nat) (set : list P0) fuel height t oc dbg k0 k1 m0 m1 ro,
  roundtrips q0 any -> roundtrips q1 any -> roundtrips z0 any -> roundtrips z1 any -> roundtrips qC any ->
  sl_new bp0 pc0 delta0 = Some (even_p prm) -> sl_new bp1 pc1 delta1 = Some (odd_p prm) -> sw_a P0 = 0 -> sw_a P1 = 0 ->
  gens_wf bp0 -> (gens_capacity bp0 < 2 ^ 32)%nat -> gens_wf bp1 -> (gens_capacity bp1 < 2 ^ 32)%nat ->
  from_set fuel L M prm set height = TOk t -> (N.of_nat (L ^ t_height t) < 2 ^ 64)%N -> (0 < M)%nat -> t_height t <> 0%nat -> (2 <= L)%nat -> (L <= 128 \/ 2 <= t_height t)%nat ->
  fake_ok enc_pk sha3 oc L prm set t k0 -> fake_ok enc_pk sha3 oc L prm set t k1 ->
  honest_mint sg enc_pk enc_sc sha3 prm m0 -> honest_mint sg enc_pk enc_sc sha3 prm m1 ->
  fN (mi_value m0) + fN (mi_value m1) = fk_value k0 + fk_value k1 ->
  exists s0' s1' path0 path1 c0 c1,
    forge_pour E0 E1 enc0 enc1 sg enc_pk enc_sc sha3 dbg oc L prm t k0 k1 m0 m1 (p_new ro) (p_new ro) = Some (s0', s1', (path0, path1, c0, c1)) /\
    forall dbg0 rnd0 pf0 dbg1 rnd1 pf1, good_proof E0 dbg0 rnd0 pc0 bp0 s0' pf0 -> good_proof E1 dbg1 rnd1 pc1 bp1 s1' pf1 ->
    let po := mkPour pf0 pf1 path0 path1 (fk_pk k0) (fk_pk k1) c0 c1 in let bs := c_enc (pour_codec q0 q1 z0 z1 qC) po in
    pour_fits po -> forall r0 e0 r1 e1, sg_verify sg (fk_pk k0) bs (r0, e0) <> None -> sg_verify sg (fk_pk k1) bs (r1, e1) <> None ->
    forall dbg' rr0 rr1, exists vt0 vt1,
      tx_verify E0 E1 enc0 enc1 sg enc_pk sha3 dbg' L prm t ro rr0 rr1 (c_dec (pour_codec q0 q1 z0 z1 qC)) (mkTx r0 e0 r1 e1 bs) = Some (vt0, vt1) /\
      batch_verify [vt0] [] pc0 bp0 = Some (Ok tt) /\ batch_verify [vt1] [] pc1 bp1 = Some (Ok tt).
Proof.
  intros F0 F1 P0 P1 FC C E0 E1 enc0 enc1 sg enc_pk enc_sc sha3 q0 q1 z0 z1 qC bp0 pc0 delta0 bp1 pc1 delta1 prm L M set fuel height t oc dbg k0 k1 m0 m1 ro Q0 Q1 Z0 Z1 QC Hsl0 Hsl1 Ha0 Ha1 W0 B0 W1 B1 Ht Hc HM Hh HL HD I0 I1 M0 M1 Hb.
  destruct (C69_counterfeit_refuted _ _ P0 P1 FC C E0 E1 enc0 enc1 sg enc_pk enc_sc sha3 bp0 pc0 delta0 bp1 pc1 delta1 prm L M set fuel height t oc dbg k0 k1 m0 m1 ro Hsl0 Hsl1 Ha0 Ha1 W0 B0 W1 B1 Ht Hc HM Hh HL HD I0 I1 M0 M1 Hb) as (s0' & s1' & p0 & p1 & c0 & c1 & R & K).
  exists s0', s1', p0, p1, c0, c1. split; [exact R|]. intros dbg0 rnd0 pf0 dbg1 rnd1 pf1 G0 G1 po bs Hf r0 e0 r1 e1 S0 S1 dbg' rr0 rr1.
  destruct (K dbg0 rnd0 pf0 dbg1 rnd1 pf1 G0 G1 dbg' rr0 rr1) as (vt0 & vt1 & Kv & KB). exists vt0, vt1. split; [|exact KB].
  unfold tx_verify. cbn [tx_pour]. unfold bs at 1. rewrite <- (app_nil_r (c_enc _ _)). rewrite (roundtrip_pour q0 q1 z0 z1 qC Q0 Q1 Z0 Z1 QC _ [] Hf). cbn [opt_bind].
  unfold verify_signatures. cbn [tx_pour tx_resp0 tx_chal0 tx_resp1 tx_chal1 po po_pk0 po_pk1].
  destruct (sg_verify sg (fk_pk k0) _ _) as [ok0|]; [|destruct (S0 eq_refl)]. cbn [opt_bind]. destruct (sg_verify sg (fk_pk k1) _ _) as [ok1|]; [|destruct (S1 eq_refl)]. cbn [opt_bind]. exact Kv.
Qed.
Print Assumptions C69_counterfeit_refuted.
Print Assumptions C69_transaction_refuted.

(** ** The hypotheses are satisfiable: five points nobody can open, and two made-up coins *)
Notation Fk := (Fake (F0 := PF163) (F1 := PF139) TC1).
(* test data or vocabulary of statements, no code modelled *)
Definition toy_leaves : list TC0 := [k163 20; k163 31; k163 42; k163 53; k163 64].
(* test data or vocabulary of statements, no code modelled *)
Definition toy_fake (index : N) (value : PF163) (sk : PF139) (b : PF163) : Fk := mkFake (C := TC1) index value (toy_pk_of sk) b toy_os toy_es.
(** The conditions of [fake_ok] as a test *)
Definition fake_check (L : nat) (prm : SRParams TC0 TC1) (t : CurveTree TC0 TC1) (k : Fk) : bool :=
  match nth_error toy_leaves (N.to_nat (fk_index k)), tree_witness true L t (fk_index k) 0 prm, fake_commitment ec1 toy_sha (even_p prm) k with
  | Some leaf, Some (e, o), Some R => adm_all (odd_p prm) (fk_os k) e && adm_all (even_p prm) (fk_es k) o && negb (veqb (vadd leaf (sl_delta (even_p prm))) v0) && forallb (fun P => negb (veqb P R)) (unreachable (even_p prm) leaf)
  | _, _, _ => false end.
Lemma fake_check_spec L prm t k : fake_check L prm t k = true -> fake_ok (P0 := TC0) (P1 := TC1) ec1 toy_sha true L prm toy_leaves t k.
Proof.
  unfold fake_check. destruct (nth_error toy_leaves (N.to_nat (fk_index k))) as [leaf|] eqn:El; [|discriminate]. destruct (tree_witness true L t (fk_index k) 0 prm) as [[e o]|] eqn:Ew; [|discriminate].
  destruct (fake_commitment ec1 toy_sha (even_p prm) k) as [R|] eqn:ER; [|discriminate]. intros H. apply andb_prop in H as [H Hu]. apply andb_prop in H as [H HP]. apply andb_prop in H as [Ae Ao].
  exists (N.to_nat (fk_index k)), leaf, e, o, R. rewrite Nnat.N2Nat.id. split; [reflexivity|]. split; [exact El|]. split; [exact Ew|]. split; [exact (adm_all_spec _ _ _ Ae)|]. split; [exact (fun j w E _ => adm_all_spec _ _ _ Ao j w E)|].
  split. { intros E. apply Bool.negb_true_iff in HP. rewrite (proj2 (veqb_true _ _) E) in HP. discriminate HP. }
  split; [exact ER|]. intros Hin. rewrite forallb_forall in Hu. specialize (Hu _ Hin). apply Bool.negb_true_iff in Hu. rewrite (proj2 (veqb_true _ _) eq_refl) in Hu. discriminate Hu.
Qed.
(** A computation about the tree of the five points *)
Definition with_leaves (f : SRParams TC0 TC1 -> CurveTree TC0 TC1 -> bool) : bool :=
  match sl_new pos0 toy_pcg toy_delta, sl_new pos1 toy_pcg1 toy_delta1 with
  | Some a, Some b => match from_set 6 2 1 (mkSRP a b) toy_leaves None with TOk t => f (mkSRP a b) t | _ => false end
  | _, _ => false end.
Lemma with_leaves_spec f : with_leaves f = true -> exists prm t, sl_new pos0 toy_pcg toy_delta = Some (even_p prm) /\ sl_new pos1 toy_pcg1 toy_delta1 = Some (odd_p prm) /\ from_set 6 2 1 prm toy_leaves None = TOk t /\ f prm t = true.
Proof.
  unfold with_leaves. intros H. destruct (sl_new pos0 toy_pcg toy_delta) as [a|]; [|discriminate H]. destruct (sl_new pos1 toy_pcg1 toy_delta1) as [b|]; [|discriminate H].
  destruct (from_set 6 2 1 (mkSRP a b) toy_leaves None) as [t| |] eqn:Et; try discriminate H. exists (mkSRP a b), t. repeat split; assumption.
Qed.
(** 100 and 7 are minted; the made-up inputs have the values 107 and 0. *)
Notation fake0 := (toy_fake 3 (f163 107) (f139 17) (f163 13)).
Notation fake1 := (toy_fake 1 (f163 0) (f139 19) (f163 12)).
Example C69_demo : exists (prm : SRParams TC0 TC1) t s0' s1' path0 path1 c0 c1, from_set 6 2 1 prm toy_leaves None = TOk t /\ t_height t = 3%nat /\
    fake_ok (P0 := TC0) (P1 := TC1) ec1 toy_sha true 2 prm toy_leaves t fake0 /\ fake_ok (P0 := TC0) (P1 := TC1) ec1 toy_sha true 2 prm toy_leaves t fake1 /\
    forge_pour EE0 EE1 ec0 ec1 toy_schnorr ec1 sc139 toy_sha true true 2 prm t fake0 fake1 (toy_m0 100) (toy_m1 7) (p_new toy_ro) (p_new toy_ro) = Some (s0', s1', (path0, path1, c0, c1)) /\
    forall dbg0 rnd0 pf0 dbg1 rnd1 pf1, good_proof EE0 dbg0 rnd0 toy_pcg pos0 s0' pf0 -> good_proof EE1 dbg1 rnd1 toy_pcg1 pos1 s1' pf1 ->
    forall dbg' rr0 rr1, exists vt0 vt1, pour_verify EE0 EE1 ec0 ec1 ec1 toy_sha dbg' 2 prm t toy_ro rr0 rr1 (mkPour (P0 := TC0) (P1 := TC1) (C := TC1) pf0 pf1 path0 path1 (fk_pk fake0) (fk_pk fake1) c0 c1) = Some (vt0, vt1) /\
      batch_verify [vt0] [] toy_pcg pos0 = Some (Ok tt) /\ batch_verify [vt1] [] toy_pcg1 pos1 = Some (Ok tt).
Proof.
  destruct (with_leaves_spec (fun prm t => (t_height t =? 3)%nat && fake_check 2 prm t fake0 && fake_check 2 prm t fake1 && mint_ok prm (toy_m0 100) && mint_ok prm (toy_m1 7))%bool ltac:(vm_compute; reflexivity)) as (prm & t & H0 & H1 & Ht & H).
  apply andb_prop in H as [H M1]. apply andb_prop in H as [H M0]. apply andb_prop in H as [H I1]. apply andb_prop in H as [Eh I0]. apply Nat.eqb_eq in Eh. apply fake_check_spec in I0, I1. apply mint_ok_spec in M0, M1.
  destruct (C69_counterfeit_refuted _ _ TC0 TC1 _ _ EE0 EE1 ec0 ec1 toy_schnorr ec1 sc139 toy_sha pos0 toy_pcg toy_delta pos1 toy_pcg1 toy_delta1 prm 2 1 toy_leaves 6 None t true true fake0 fake1 (toy_m0 100) (toy_m1 7) toy_ro
    H0 H1 eq_refl eq_refl (gens_wf_new _ _ _ _ _) cap_256 (gens_wf_new _ _ _ _ _) cap_256 Ht ltac:(rewrite Eh; vm_compute; reflexivity) ltac:(lia) ltac:(rewrite Eh; discriminate) ltac:(lia) ltac:(left; lia) I0 I1 M0 M1
    ltac:(vm_compute; reflexivity)) as (s0' & s1' & p0 & p1 & c0 & c1 & R & K).
  exists prm, t, s0', s1', p0, p1, c0, c1. split; [exact Ht|]. split; [exact Eh|]. split; [exact I0|]. split; [exact I1|]. split; [exact R|exact K].
Qed.
(** The whole transaction: the proofs are made, the bytes are signed with the attacker's
    keys, both signatures are valid, and the receiver accepts (a test when this file is compiled). *)
Definition fake_tx (prm : SRParams TC0 TC1) t (k0 k1 : Fk) (v0 v1 : N) : option (SignedTx PF139) :=
  match forge_pour EE0 EE1 ec0 ec1 toy_schnorr ec1 sc139 toy_sha true true 2 prm t k0 k1 (toy_m0 v0) (toy_m1 v1) (p_new toy_ro) (p_new toy_ro) with
  | Some (s0, s1, (path0, path1, c0, c1)) =>
    match r1cs_prove EE0 true (toy_rnd PM163) toy_pcg pos0 s0, r1cs_prove EE1 true (toy_rnd PM139) toy_pcg1 pos1 s1 with
    | Some (Ok (pf0, _)), Some (Ok (pf1, _)) => let bs := c_enc toy_codec (mkPour (P0 := TC0) (P1 := TC1) (C := TC1) pf0 pf1 path0 path1 (fk_pk k0) (fk_pk k1) c0 c1) in
       match sg_sign toy_schnorr (f139 17) bs (f139 7), sg_sign toy_schnorr (f139 19) bs (f139 8) with Some (r0, e0), Some (r1, e1) => Some (mkTx r0 e0 r1 e1 bs) | _, _ => None end
    | _, _ => None end
  | None => None end.
(* test data or vocabulary of statements, no code modelled *)
Definition C69_run_value : bool := Eval vm_compute in
  with_leaves (fun prm t => match fake_tx prm t fake0 fake1 100 7 with
    | Some tx => tx_ok prm t tx && match tx_facts tx with Some (true, true, false) => true | _ => false end | None => false end).
Example C69_run_test : C69_run_value = true.
Proof. reflexivity. Qed.
