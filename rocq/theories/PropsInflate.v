(** * Minting more than is spent: C72 *)
From Verif Require Export Inflate PropsCoin.
From Verif Require Import CSProofs UtilProofs Lockstep CSMore R1CS R1CSSpec R1CSProofs R1CSMain CircuitSize Toy ToyCurve PropsGadgets PropsRerand PropsSelRerand PropsSelBatch.
Local Open Scope F_scope.

(** ** C72: an accepted pour mints what it spends *)
(** Refuted, without the missing constraint behind C68 and C69: both inputs are coins of the
    tree that belong to the payer and both paths are honest.  The payer mints an honest coin
    of any value below 2^64, whatever the values of the two inputs are, provided the second
    input is not worth zero.  The first output takes up the difference: its range proof
    contains one violated gate, and its commitment has a coefficient on a generator [H] that
    makes up for it ([forge_vec]). *)
Theorem C72_inflation_refuted : forall (F0 F1 : PField) (P0 : SWCurve F1 F0) (P1 : SWCurve F0 F1) (FC : Field) (C : VSpace FC) (E0 : TrEnv P0) (E1 : TrEnv P1) (enc0 : P0 -> bytes) (enc1 : P1 -> bytes)
    (sg : SigScheme FC C) (enc_pk : C -> bytes) (enc_sc : FC -> bytes) (sha3 : bytes -> bytes)
    bp0 pc0 delta0 bp1 pc1 delta1 (prm : SRParams P0 P1) (L M : nat) (set : list P0) fuel height t oc dbg i0 i1 tag b m coin c1 ro,
  sl_new bp0 pc0 delta0 = Some (even_p prm) -> sl_new bp1 pc1 delta1 = Some (odd_p prm) -> sw_a P0 = 0 -> sw_a P1 = 0 ->
  gens_wf bp0 -> (gens_capacity bp0 < 2 ^ 32)%nat -> gens_wf bp1 -> (gens_capacity bp1 < 2 ^ 32)%nat ->
  from_set fuel L M prm set height = TOk t -> (N.of_nat (L ^ t_height t) < 2 ^ 64)%N -> (0 < M)%nat -> t_height t <> 0%nat -> (2 <= L)%nat -> (L <= 128 \/ 2 <= t_height t)%nat ->
  honest_input sg enc_pk enc_sc sha3 oc L prm set t i0 -> honest_input sg enc_pk enc_sc sha3 oc L prm set t i1 -> (fN (co_value (sp_coin i1)) : F0) <> 0 ->
  (mi_value m < 2 ^ 64)%N -> coin_new sg enc_pk enc_sc sha3 (even_p prm) (mi_value m) (mi_pk m) (mi_pkr m) (mi_blinding m) = Some (coin, c1) ->
  exists s0' s1' path0 path1 c0,
    inflate E0 E1 enc0 enc1 sg enc_pk enc_sc sha3 dbg oc L prm t i0 i1 tag b m (p_new ro) (p_new ro) = Some (s0', s1', (path0, path1, c0, c1)) /\
    forall rnd0 pf0 dbg1 rnd1 pf1,
      forge_vec E0 rnd0 pc0 bp0 s0' 0 (surplus_h i0 i1 m) = Some pf0 -> Forall (fun P => P <> v0) (validated_points (op_degree_of (length (p_vec s0'))) pf0) ->
      good_proof E1 dbg1 rnd1 pc1 bp1 s1' pf1 ->
    forall dbg' rr0 rr1, exists vt0 vt1,
      pour_verify E0 E1 enc0 enc1 enc_pk sha3 dbg' L prm t ro rr0 rr1 (mkPour pf0 pf1 path0 path1 (sp_pk i0) (sp_pk i1) c0 c1) = Some (vt0, vt1) /\
      batch_verify [vt0] [] pc0 bp0 = Some (Ok tt) /\ batch_verify [vt1] [] pc1 bp1 = Some (Ok tt).
Proof.
  intros F0 F1 P0 P1 FC C E0 E1 enc0 enc1 sg enc_pk enc_sc sha3 bp0 pc0 delta0 bp1 pc1 delta1 prm L M set fuel height t oc dbg i0 i1 tag b m coin c1 ro Hsl0 Hsl1 Ha0 Ha1 W0 B0 W1 B1 Ht Hc HM Hh HL HD I0 I1 Hb V1 M1.
  pose proof (sl_new_countable _ _ _ _ Hsl1) as Cn. destruct (sl_new_good _ _ _ _ Hsl0) as (Hg0 & Eb0 & Ep0 & _), (sl_new_good _ _ _ _ Hsl1) as (Hg1 & Eb1 & Ep1 & _). clear Hsl0 Hsl1. subst bp0 pc0 bp1 pc1.
  exact (inflate_accepted E0 E1 enc0 enc1 sg enc_pk enc_sc sha3 dbg oc L M prm set fuel height t i0 i1 tag b m ro coin c1 Hg0 Hg1 Cn Ha0 Ha1 W0 B0 W1 B1 Ht Hc HM Hh HL HD I0 I1 Hb V1 M1).
Qed.
Print Assumptions C72_inflation_refuted.

(** ** The hypotheses are satisfiable: coins of value 30 and 12 are spent, 160 is minted *)
Lemma mint_any prm v v' : toy_hmint prm (toy_m1 v) -> (v' < 2 ^ 64)%N -> toy_hmint prm (toy_m1 v').
Proof.
  intros (_ & coin & c & H) Hv. split; [exact Hv|]. unfold coin_new, sl_commit in *. destruct (rerandomized_pk _ _ _ _) as [rpk|]; [|discriminate H]. cbn [opt_bind length] in *.
  destruct (share_G _ 0 (2 * (0 + 1))) as [G|]; [|discriminate H]. cbn [opt_bind length] in *. unfold guard in *. destruct (Nat.eqb _ _); [|discriminate H]. cbn [opt_bind]. eauto.
Qed.
Example C72_demo : exists (prm : SRParams TC0 TC1) t i0 i1 s0' s1' path0 path1 c0 coin c1, t_height t = 3%nat /\ co_value (sp_coin i0) = 30%N /\ co_value (sp_coin i1) = 12%N /\
    coin_new toy_schnorr ec1 sc139 toy_sha (even_p prm) 160 (mi_pk (toy_m1 160)) (mi_pkr (toy_m1 160)) (mi_blinding (toy_m1 160)) = Some (coin, c1) /\
    inflate EE0 EE1 ec0 ec1 toy_schnorr ec1 sc139 toy_sha true true 2 prm t i0 i1 (f163 1) (f163 3) (toy_m1 160) (p_new toy_ro) (p_new toy_ro) = Some (s0', s1', (path0, path1, c0, c1)) /\
    forall rnd0 pf0 dbg1 rnd1 pf1, forge_vec EE0 rnd0 toy_pcg pos0 s0' 0 (surplus_h i0 i1 (toy_m1 160)) = Some pf0 -> Forall (fun P => P <> v0) (validated_points (op_degree_of (length (p_vec s0'))) pf0) ->
      good_proof EE1 dbg1 rnd1 toy_pcg1 pos1 s1' pf1 ->
    forall dbg' rr0 rr1, exists vt0 vt1, pour_verify EE0 EE1 ec0 ec1 ec1 toy_sha dbg' 2 prm t toy_ro rr0 rr1 (mkPour (P0 := TC0) (P1 := TC1) (C := TC1) pf0 pf1 path0 path1 (sp_pk i0) (sp_pk i1) c0 c1) = Some (vt0, vt1) /\
      batch_verify [vt0] [] toy_pcg pos0 = Some (Ok tt) /\ batch_verify [vt1] [] toy_pcg1 pos1 = Some (Ok tt).
Proof.
  destruct purse_demo as (prm & t & set & i0 & i1 & H0 & H1 & _ & _ & Ht & Eh & I0 & I1 & V0 & V1 & _ & M & _). destruct (mint_any prm 2 160 M ltac:(lia)) as (Hv & coin & c1 & M1). clear M. rename M1 into M.
  assert (Hb : (fN (co_value (sp_coin i1)) : PF163) <> 0) by (rewrite V1; intros E; apply (f_equal (fun x => feqb x 0)) in E; vm_compute in E; discriminate E).
  destruct (C72_inflation_refuted _ _ TC0 TC1 _ _ EE0 EE1 ec0 ec1 toy_schnorr ec1 sc139 toy_sha pos0 toy_pcg toy_delta pos1 toy_pcg1 toy_delta1 prm 2 1 _ 6 None t true true i0 i1 (f163 1) (f163 3) (toy_m1 160) coin c1 toy_ro
    H0 H1 eq_refl eq_refl (gens_wf_new _ _ _ _ _) cap_256 (gens_wf_new _ _ _ _ _) cap_256 Ht ltac:(rewrite Eh; vm_compute; reflexivity) ltac:(lia) ltac:(rewrite Eh; discriminate) ltac:(lia) ltac:(left; lia) I0 I1 Hb Hv M) as (s0' & s1' & p0 & p1 & c0 & R & K).
  exists prm, t, i0, i1, s0', s1', p0, p1, c0, coin, c1. split; [exact Eh|]. split; [exact V0|]. split; [exact V1|]. split; [exact M|]. split; [exact R|exact K].
Qed.
(** The whole transaction, signed with the keys of the two inputs, made and accepted (a test
    when this file is compiled). *)
Definition inflated_tx (prm : SRParams TC0 TC1) t (i0 i1 : Sp) (v : N) : option (SignedTx PF139) :=
  match inflate EE0 EE1 ec0 ec1 toy_schnorr ec1 sc139 toy_sha true true 2 prm t i0 i1 (f163 1) (f163 3) (toy_m1 v) (p_new toy_ro) (p_new toy_ro) with
  | Some (s0, s1, (path0, path1, c0, c1)) =>
    match forge_vec EE0 (toy_rnd PM163) toy_pcg pos0 s0 0 (surplus_h i0 i1 (toy_m1 v)), r1cs_prove EE1 true (toy_rnd PM139) toy_pcg1 pos1 s1 with
    | Some pf0, Some (Ok (pf1, _)) => let bs := c_enc toy_codec (mkPour (P0 := TC0) (P1 := TC1) (C := TC1) pf0 pf1 path0 path1 (sp_pk i0) (sp_pk i1) c0 c1) in
       match sign_input toy_schnorr sc139 i0 (f139 7) bs, sign_input toy_schnorr sc139 i1 (f139 8) bs with Some (r0, e0), Some (r1, e1) => Some (mkTx r0 e0 r1 e1 bs) | _, _ => None end
    | _, _ => None end
  | None => None end.
(* test data or vocabulary of statements, no code modelled *)
Definition C72_run_value : bool := Eval vm_compute in
  with_purse 2 toy_purse 1 3 (fun prm t i0 i1 => match inflated_tx prm t i0 i1 160 with
    | Some tx => tx_ok prm t tx && match tx_facts tx with Some (true, true, false) => true | _ => false end | None => false end).
Example C72_run_test : C72_run_value = true.
Proof. reflexivity. Qed.
