(** * The depth of spent coins: C73 *)
From Verif Require Export Depth PropsCoin.
From Verif Require Import CSProofs UtilProofs Lockstep CSMore R1CS R1CSSpec R1CSProofs R1CSMain SelPath Toy ToyCurve PropsGadgets PropsRerand PropsSelRerand PropsCounterfeit.
Local Open Scope F_scope.

(** ** C73: the coins spent by an accepted pour are as deep in the tree as its leaves *)
(** What is left of it: the parity of the depth. *)
Theorem C73_parity_partial : forall (F0 F1 : PField) (P0 : SWCurve F1 F0) (P1 : SWCurve F0 F1) (FC : Field) (C : VSpace FC) (E0 : TrEnv P0) (E1 : TrEnv P1) (enc0 : P0 -> bytes) (enc1 : P1 -> bytes)
    (enc_pk : C -> bytes) (sha3 : bytes -> bytes) dbg (L : nat) (prm : SRParams P0 P1) t ro rr0 rr1 (po : Pour P0 P1 C) r,
  pour_verify E0 E1 enc0 enc1 enc_pk sha3 dbg L prm t ro rr0 rr1 po = Some r ->
  forall p, p = po_path0 po \/ p = po_path1 po -> length (pa_odd p) = (length (pa_even p) + if t_is_even t then 1 else 0)%nat.
Proof.
  intros F0 F1 P0 P1 FC C E0 E1 enc0 enc1 enc_pk sha3 dbg L prm t ro rr0 rr1 po r H. unfold pour_verify in H.
  destruct (verification_commitments t (po_path0 po)) as [p0|] eqn:V0; [|discriminate H]. cbn [opt_bind] in H. destruct (verification_commitments t (po_path1 po)) as [p1|] eqn:V1; [|discriminate H].
  assert (Hx : forall p p', verification_commitments t p = Some p' -> length (pa_odd p) = (length (pa_even p) + if t_is_even t then 1 else 0)%nat).
  { intros p p' Hv. unfold verification_commitments, guard in Hv. destruct t as [ct|ct]; cbn [t_is_even]; match type of Hv with context [(?a =? ?b)%nat] => destruct (Nat.eqb_spec a b) as [E|]; [|discriminate Hv] end; lia. }
  intros p [->| ->]; eapply Hx; eassumption.
Qed.
Print Assumptions C73_parity_partial.

(** Refuted, even with debug assertions: only [select_and_rerandomize_verification_gadget]
    compares the length of a path with the height of the tree, and it does so in a
    [debug_assert]; pours call the two halves of it directly.  Neither the missing
    constraint behind C68 nor the commitments of C71 are used, the proofs are honest.

    First step: the payer mints a coin whose tag is the x-coordinate of an odd point of their
    choice (no constraint ties the tag of a minted coin to a key), without blinding.  The
    commitment of this coin is also the commitment of an inner node. *)
Theorem C73_any_tag_refuted : forall (F0 F1 : PField) (P0 : SWCurve F1 F0) (P1 : SWCurve F0 F1) (FC : Field) (C : VSpace FC) (E0 : TrEnv P0) (E1 : TrEnv P1) (enc0 : P0 -> bytes) (enc1 : P1 -> bytes)
    (sg : SigScheme FC C) (enc_pk : C -> bytes) (enc_sc : FC -> bytes) (sha3 : bytes -> bytes)
    bp0 pc0 delta0 bp1 pc1 delta1 (prm : SRParams P0 P1) (L M : nat) (set : list P0) fuel height t oc dbg i0 i1 m coin c0 cover tag c1 ro,
  sl_new bp0 pc0 delta0 = Some (even_p prm) -> sl_new bp1 pc1 delta1 = Some (odd_p prm) -> sw_a P0 = 0 -> sw_a P1 = 0 ->
  gens_wf bp0 -> (gens_capacity bp0 < 2 ^ 32)%nat -> gens_wf bp1 -> (gens_capacity bp1 < 2 ^ 32)%nat ->
  from_set fuel L M prm set height = TOk t -> (N.of_nat (L ^ t_height t) < 2 ^ 64)%N -> (0 < M)%nat -> t_height t <> 0%nat -> (2 <= L)%nat -> (L <= 128 \/ 2 <= t_height t)%nat ->
  honest_input sg enc_pk enc_sc sha3 oc L prm set t i0 -> honest_input sg enc_pk enc_sc sha3 oc L prm set t i1 ->
  (mi_value m < 2 ^ 64)%N -> coin_new sg enc_pk enc_sc sha3 (even_p prm) (mi_value m) (mi_pk m) (mi_pkr m) (mi_blinding m) = Some (coin, c0) ->
  (cover < 2 ^ 64)%N -> sl_commit (even_p prm) [fN cover; tag] 0 0 = Some c1 ->
  fN (mi_value m) + fN cover = (fN (co_value (sp_coin i0)) + fN (co_value (sp_coin i1)) : F0) ->
  exists s0' s1' path0 path1,
    plant E0 E1 enc0 enc1 sg enc_pk enc_sc sha3 dbg oc L prm t i0 i1 m cover tag (p_new ro) (p_new ro) = Some (s0', s1', (path0, path1, c0, c1)) /\
    forall dbg0 rnd0 pf0 dbg1 rnd1 pf1, good_proof E0 dbg0 rnd0 pc0 bp0 s0' pf0 -> good_proof E1 dbg1 rnd1 pc1 bp1 s1' pf1 ->
    forall dbg' rr0 rr1, exists vt0 vt1,
      pour_verify E0 E1 enc0 enc1 enc_pk sha3 dbg' L prm t ro rr0 rr1 (mkPour pf0 pf1 path0 path1 (sp_pk i0) (sp_pk i1) c0 c1) = Some (vt0, vt1) /\
      batch_verify [vt0] [] pc0 bp0 = Some (Ok tt) /\ batch_verify [vt1] [] pc1 bp1 = Some (Ok tt).
Proof.
  intros F0 F1 P0 P1 FC C E0 E1 enc0 enc1 sg enc_pk enc_sc sha3 bp0 pc0 delta0 bp1 pc1 delta1 prm L M set fuel height t oc dbg i0 i1 m coin c0 cover tag c1 ro Hsl0 Hsl1 Ha0 Ha1 W0 B0 W1 B1 Ht Hc HM Hh HL HD I0 I1 V0 M0 V1 M1 Hb.
  destruct (sl_new_good _ _ _ _ Hsl0) as (Hg0 & Eb0 & Ep0 & _), (sl_new_good _ _ _ _ Hsl1) as (Hg1 & Eb1 & Ep1 & _). clear Hsl0 Hsl1. subst bp0 pc0 bp1 pc1.
  destruct (parts_accepted E0 E1 enc0 enc1 enc_pk sha3 dbg L (t_height t) (t_height t) prm t _ _ _ _ (sp_pk i0) (sp_pk i1) c0 c1 _ _ _ _ ro
    (honest_mint_part E0 sg enc_pk enc_sc sha3 dbg prm m coin c0 V0 M0) (tag_mint_part E0 dbg (even_p prm) cover tag c1 V1 M1)
    (honest_spend_part E0 E1 enc0 enc1 sg enc_pk enc_sc sha3 oc L M prm set fuel height t i0 Hg0 Hg1 Ha0 Ha1 Ht Hc HM Hh I0) (honest_spend_part E0 E1 enc0 enc1 sg enc_pk enc_sc sha3 oc L M prm set fuel height t i1 Hg0 Hg1 Ha0 Ha1 Ht Hc HM Hh I1)
    Hb HL HD W0 B0 W1 B1) as (s0' & s1' & path0 & path1 & R & _ & _ & K).
  exists s0', s1', path0, path1. split; [exact R|exact K].
Qed.
(** Second step: once such a coin is in the tree, the payer spends made-up coins, of any
    values, that lie two levels below it. *)
Theorem C73_depth_refuted : forall (F0 F1 : PField) (P0 : SWCurve F1 F0) (P1 : SWCurve F0 F1) (FC : Field) (C : VSpace FC) (E0 : TrEnv P0) (E1 : TrEnv P1) (enc0 : P0 -> bytes) (enc1 : P1 -> bytes)
    (sg : SigScheme FC C) (enc_pk : C -> bytes) (enc_sc : FC -> bytes) (sha3 : bytes -> bytes)
    bp0 pc0 delta0 bp1 pc1 delta1 (prm : SRParams P0 P1) (L M : nat) (set : list P0) fuel height t oc dbg cover0 cover1 k0 k1 m0 m1 coin0 c0 coin1 c1 ro,
  sl_new bp0 pc0 delta0 = Some (even_p prm) -> sl_new bp1 pc1 delta1 = Some (odd_p prm) -> sw_a P0 = 0 -> sw_a P1 = 0 ->
  gens_wf bp0 -> (gens_capacity bp0 < 2 ^ 32)%nat -> gens_wf bp1 -> (gens_capacity bp1 < 2 ^ 32)%nat -> (L <= gens_capacity bp0)%nat ->
  from_set fuel L M prm set height = TOk t -> (N.of_nat (L ^ t_height t) < 2 ^ 64)%N -> (0 < M)%nat -> t_height t <> 0%nat -> (2 <= L)%nat ->
  deep_ok enc_pk sha3 oc L prm set t cover0 k0 -> deep_ok enc_pk sha3 oc L prm set t cover1 k1 ->
  (mi_value m0 < 2 ^ 64)%N -> coin_new sg enc_pk enc_sc sha3 (even_p prm) (mi_value m0) (mi_pk m0) (mi_pkr m0) (mi_blinding m0) = Some (coin0, c0) ->
  (mi_value m1 < 2 ^ 64)%N -> coin_new sg enc_pk enc_sc sha3 (even_p prm) (mi_value m1) (mi_pk m1) (mi_pkr m1) (mi_blinding m1) = Some (coin1, c1) ->
  fN (mi_value m0) + fN (mi_value m1) = fk_value k0 + fk_value k1 ->
  exists s0' s1' path0 path1,
    harvest E0 E1 enc0 enc1 sg enc_pk enc_sc sha3 dbg oc L prm t cover0 cover1 k0 k1 m0 m1 (p_new ro) (p_new ro) = Some (s0', s1', (path0, path1, c0, c1)) /\
    (length (pa_even path0) + length (pa_odd path0) + 1 = t_height t + 2)%nat /\ (length (pa_even path1) + length (pa_odd path1) + 1 = t_height t + 2)%nat /\
    forall dbg0 rnd0 pf0 dbg1 rnd1 pf1, good_proof E0 dbg0 rnd0 pc0 bp0 s0' pf0 -> good_proof E1 dbg1 rnd1 pc1 bp1 s1' pf1 ->
    forall dbg' rr0 rr1, exists vt0 vt1,
      pour_verify E0 E1 enc0 enc1 enc_pk sha3 dbg' L prm t ro rr0 rr1 (mkPour pf0 pf1 path0 path1 (fk_pk k0) (fk_pk k1) c0 c1) = Some (vt0, vt1) /\
      batch_verify [vt0] [] pc0 bp0 = Some (Ok tt) /\ batch_verify [vt1] [] pc1 bp1 = Some (Ok tt).
Proof.
  intros F0 F1 P0 P1 FC C E0 E1 enc0 enc1 sg enc_pk enc_sc sha3 bp0 pc0 delta0 bp1 pc1 delta1 prm L M set fuel height t oc dbg cover0 cover1 k0 k1 m0 m1 coin0 c0 coin1 c1 ro Hsl0 Hsl1 Ha0 Ha1 W0 B0 W1 B1 Hcap Ht Hc HM Hh HL I0 I1 V0 M0 V1 M1 Hb.
  destruct (sl_new_good _ _ _ _ Hsl0) as (Hg0 & Eb0 & Ep0 & _), (sl_new_good _ _ _ _ Hsl1) as (Hg1 & Eb1 & Ep1 & _). clear Hsl0 Hsl1. subst bp0 pc0 bp1 pc1.
  assert (HD : (L <= 128 \/ 2 <= t_height t + 2)%nat) by lia.
  destruct (parts_accepted E0 E1 enc0 enc1 enc_pk sha3 dbg L (t_height t + 2) (t_height t + 2) prm t _ _ _ _ (fk_pk k0) (fk_pk k1) c0 c1 _ _ _ _ ro
    (honest_mint_part E0 sg enc_pk enc_sc sha3 dbg prm m0 coin0 c0 V0 M0) (honest_mint_part E0 sg enc_pk enc_sc sha3 dbg prm m1 coin1 c1 V1 M1)
    (deep_part E0 E1 enc0 enc1 enc_pk sha3 oc L M prm set fuel height t cover0 k0 Hg0 Hg1 Ha0 Ha1 W0 Hcap Ht Hc HM Hh HL I0) (deep_part E0 E1 enc0 enc1 enc_pk sha3 oc L M prm set fuel height t cover1 k1 Hg0 Hg1 Ha0 Ha1 W0 Hcap Ht Hc HM Hh HL I1)
    Hb HL HD W0 B0 W1 B1) as (s0' & s1' & path0 & path1 & H).
  exists s0', s1', path0, path1. exact H.
Qed.
Print Assumptions C73_any_tag_refuted.
Print Assumptions C73_depth_refuted.

(** ** The hypotheses are satisfiable: two trapdoors of value 0 as leaves of a tree *)
Definition toy_trap (prm : SRParams TC0 TC1) (k : Fk) : option TC0 := match fake_commitment ec1 toy_sha (even_p prm) k with Some R => trapdoor 2 prm 0 R | None => None end.
(** The conditions of [deep_ok] as a test *)
Definition deep_check (L : nat) (prm : SRParams TC0 TC1) (set : list TC0) (t : CurveTree TC0 TC1) (k : Fk) : bool :=
  match nth_error set (N.to_nat (fk_index k)), tree_witness true L t (fk_index k) 0 prm, fake_commitment ec1 toy_sha (even_p prm) k with
  | Some leaf, Some (e, o), Some R =>
    match trapdoor L prm 0 R, lone_node L prm R with
    | Some leaf', Some Q => veqb leaf leaf' && adm_all (odd_p prm) (fk_os k) (e ++ [mkWit [] Q]) && adm_all (even_p prm) (fk_es k) (o ++ [mkWit [] R])
    | _, _ => false end
  | _, _, _ => false end.
Lemma deep_check_spec L prm set t k : deep_check L prm set t k = true -> deep_ok (P0 := TC0) (P1 := TC1) ec1 toy_sha true L prm set t 0 k.
Proof.
  unfold deep_check. destruct (nth_error set (N.to_nat (fk_index k))) as [leaf|] eqn:El; [|discriminate]. destruct (tree_witness true L t (fk_index k) 0 prm) as [[e o]|] eqn:Ew; [|discriminate].
  destruct (fake_commitment ec1 toy_sha (even_p prm) k) as [R|] eqn:ER; [|discriminate]. destruct (trapdoor L prm 0 R) as [leaf'|] eqn:Et; [|discriminate]. destruct (lone_node L prm R) as [Q|] eqn:EQ; [|discriminate].
  intros H. apply andb_prop in H as [H Ao]. apply andb_prop in H as [HP Ae]. apply veqb_true in HP. subst leaf'. pose proof (adm_all_spec _ _ _ Ae) as Be. pose proof (adm_all_spec _ _ _ Ao) as Bo.
  exists (N.to_nat (fk_index k)), leaf, e, o, R, Q. rewrite Nnat.N2Nat.id. split; [reflexivity|]. split; [exact El|]. split; [exact Ew|]. split; [exact ER|]. split; [exact Et|]. split; [exact EQ|].
  assert (Hin : forall A (l : list A) a j w, nth_error l j = Some w -> nth_error (l ++ [a]) j = Some w) by (intros A l a j w H; rewrite nth_error_app1; [exact H|apply nth_error_Some; rewrite H; discriminate]).
  assert (Hla : forall A (l : list A) a, nth_error (l ++ [a]) (length l) = Some a) by (intros A l a; rewrite nth_error_app2, Nat.sub_diag by lia; reflexivity).
  split; [intros j w Hj; apply Be, Hin, Hj|]. split; [intros j w Hj; apply Bo, Hin, Hj|]. split; [exact (Be _ _ (Hla _ e _))|exact (Bo _ _ (Hla _ o _))].
Qed.
(** A computation about a tree that contains the trapdoors of two made-up coins *)
Definition with_traps (k0 k1 : Fk) (f : SRParams TC0 TC1 -> list TC0 -> CurveTree TC0 TC1 -> bool) : bool :=
  match sl_new pos0 toy_pcg toy_delta, sl_new pos1 toy_pcg1 toy_delta1 with
  | Some a, Some b => let prm := mkSRP a b in
     match toy_trap prm k0, toy_trap prm k1 with
     | Some c0, Some c1 => let set := [c0; c1] in match from_set 6 2 1 prm set None with TOk t => f prm set t | _ => false end
     | _, _ => false end
  | _, _ => false end.
Lemma with_traps_spec k0 k1 f : with_traps k0 k1 f = true -> exists prm set t, sl_new pos0 toy_pcg toy_delta = Some (even_p prm) /\ sl_new pos1 toy_pcg1 toy_delta1 = Some (odd_p prm) /\ from_set 6 2 1 prm set None = TOk t /\ f prm set t = true.
Proof.
  unfold with_traps. intros H. destruct (sl_new pos0 toy_pcg toy_delta) as [a|]; [|discriminate H]. destruct (sl_new pos1 toy_pcg1 toy_delta1) as [b|]; [|discriminate H]. cbv zeta in H.
  destruct (toy_trap (mkSRP a b) k0) as [c0|]; [|discriminate H]. destruct (toy_trap (mkSRP a b) k1) as [c1|]; [|discriminate H].
  destruct (from_set 6 2 1 (mkSRP a b) [c0; c1] None) as [t| |] eqn:Et; try discriminate H. exists (mkSRP a b), [c0; c1], t. repeat split; assumption.
Qed.
(** 100 and 7 are minted; the made-up coins below the trapdoors have the values 107 and 0,
    the tree itself contains no value. *)
Notation deep0 := (toy_fake 0 (f163 107) (f139 17) (f163 13)).
Notation deep1 := (toy_fake 1 (f163 0) (f139 19) (f163 12)).
Example C73_demo : exists (prm : SRParams TC0 TC1) set t s0' s1' path0 path1 c0 c1, from_set 6 2 1 prm set None = TOk t /\ t_height t = 1%nat /\
    deep_ok (P0 := TC0) (P1 := TC1) ec1 toy_sha true 2 prm set t 0 deep0 /\ deep_ok (P0 := TC0) (P1 := TC1) ec1 toy_sha true 2 prm set t 0 deep1 /\
    harvest EE0 EE1 ec0 ec1 toy_schnorr ec1 sc139 toy_sha true true 2 prm t 0 0 deep0 deep1 (toy_m0 100) (toy_m1 7) (p_new toy_ro) (p_new toy_ro) = Some (s0', s1', (path0, path1, c0, c1)) /\
    (length (pa_even path0) + length (pa_odd path0) + 1 = 3)%nat /\
    forall dbg0 rnd0 pf0 dbg1 rnd1 pf1, good_proof EE0 dbg0 rnd0 toy_pcg pos0 s0' pf0 -> good_proof EE1 dbg1 rnd1 toy_pcg1 pos1 s1' pf1 ->
    forall dbg' rr0 rr1, exists vt0 vt1, pour_verify EE0 EE1 ec0 ec1 ec1 toy_sha dbg' 2 prm t toy_ro rr0 rr1 (mkPour (P0 := TC0) (P1 := TC1) (C := TC1) pf0 pf1 path0 path1 (fk_pk deep0) (fk_pk deep1) c0 c1) = Some (vt0, vt1) /\
      batch_verify [vt0] [] toy_pcg pos0 = Some (Ok tt) /\ batch_verify [vt1] [] toy_pcg1 pos1 = Some (Ok tt).
Proof.
  destruct (with_traps_spec deep0 deep1 (fun prm set t => (t_height t =? 1)%nat && deep_check 2 prm set t deep0 && deep_check 2 prm set t deep1 && mint_ok prm (toy_m0 100) && mint_ok prm (toy_m1 7))%bool ltac:(vm_compute; reflexivity)) as (prm & set & t & H0 & H1 & Ht & H).
  apply andb_prop in H as [H M1]. apply andb_prop in H as [H M0]. apply andb_prop in H as [H I1]. apply andb_prop in H as [Eh I0]. apply Nat.eqb_eq in Eh. apply deep_check_spec in I0, I1. apply mint_ok_spec in M0, M1.
  destruct M0 as (V0 & coin0 & c0 & M0), M1 as (V1 & coin1 & c1 & M1).
  destruct (C73_depth_refuted _ _ TC0 TC1 _ _ EE0 EE1 ec0 ec1 toy_schnorr ec1 sc139 toy_sha pos0 toy_pcg toy_delta pos1 toy_pcg1 toy_delta1 prm 2 1 set 6 None t true true 0%N 0%N deep0 deep1 (toy_m0 100) (toy_m1 7) coin0 c0 coin1 c1 toy_ro
    H0 H1 eq_refl eq_refl (gens_wf_new _ _ _ _ _) cap_256 (gens_wf_new _ _ _ _ _) cap_256 ltac:(change (2 <= 256)%nat; lia) Ht ltac:(rewrite Eh; vm_compute; reflexivity) ltac:(lia) ltac:(rewrite Eh; discriminate) ltac:(lia) I0 I1 V0 M0 V1 M1
    ltac:(vm_compute; reflexivity)) as (s0' & s1' & p0 & p1 & R & L0 & L1 & K).
  exists prm, set, t, s0', s1', p0, p1, c0, c1. split; [exact Ht|]. split; [exact Eh|]. split; [exact I0|]. split; [exact I1|]. split; [exact R|]. split; [rewrite L0, Eh; reflexivity|exact K].
Qed.
(** The first step from the coins of value 30 and 12: a trapdoor of value 2 for the made-up
    coin is minted, next to an honest coin of value 40. *)
Lemma toy_commit {F S : PField} {K : SWCurve F S} bp pc delta (sl : SLParams K) v b : sl_new bp pc delta = Some sl -> gens_wf bp -> (length v <= gens_capacity bp)%nat -> exists c, sl_commit sl v b 0 = Some c.
Proof.
  intros Hn (G & _ & HG & _ & HlG & _) Hl. destruct (sl_new_good _ _ _ _ Hn) as (_ & Eb & _). eapply C22_total; [rewrite Eb; exact HG|lia].
Qed.
Example C73_any_tag_demo : exists (prm : SRParams TC0 TC1) t i0 i1 R tag c1 s0' s1' path0 path1 coin c0, t_height t = 3%nat /\ fake_commitment ec1 toy_sha (even_p prm) deep0 = Some R /\ trapdoor_tag 2 prm R = Some tag /\ trapdoor 2 prm 2 R = Some c1 /\
    toy_new (even_p prm) 40 (mi_pk (toy_m0 40)) (mi_pkr (toy_m0 40)) (mi_blinding (toy_m0 40)) = Some (coin, c0) /\
    plant EE0 EE1 ec0 ec1 toy_schnorr ec1 sc139 toy_sha true true 2 prm t i0 i1 (toy_m0 40) 2 tag (p_new toy_ro) (p_new toy_ro) = Some (s0', s1', (path0, path1, c0, c1)) /\
    forall dbg0 rnd0 pf0 dbg1 rnd1 pf1, good_proof EE0 dbg0 rnd0 toy_pcg pos0 s0' pf0 -> good_proof EE1 dbg1 rnd1 toy_pcg1 pos1 s1' pf1 ->
    forall dbg' rr0 rr1, exists vt0 vt1, pour_verify EE0 EE1 ec0 ec1 ec1 toy_sha dbg' 2 prm t toy_ro rr0 rr1 (mkPour (P0 := TC0) (P1 := TC1) (C := TC1) pf0 pf1 path0 path1 (sp_pk i0) (sp_pk i1) c0 c1) = Some (vt0, vt1) /\
      batch_verify [vt0] [] toy_pcg pos0 = Some (Ok tt) /\ batch_verify [vt1] [] toy_pcg1 pos1 = Some (Ok tt).
Proof.
  destruct purse_demo as (prm & t & set & i0 & i1 & H0 & H1 & _ & _ & Ht & Eh & I0 & I1 & V0 & V1 & (Hv & coin & c0 & M0) & _).
  assert (Hcap : (2 <= 256)%nat) by lia.
  destruct (toy_commit _ _ _ (even_p prm) [fk_value deep0; pk_to_scalar ec1 toy_sha (fk_pk deep0)] (fk_blinding deep0) H0 (gens_wf_new _ _ _ _ _) Hcap) as (R & ER).
  destruct (toy_commit _ _ _ (odd_p prm) (entry (even_p prm) R :: zeros (2 - 1)) 0 H1 (gens_wf_new _ _ _ _ _) Hcap) as (Q & EQ).
  destruct (toy_commit _ _ _ (even_p prm) [fN 2; entry (odd_p prm) Q] 0 H0 (gens_wf_new _ _ _ _ _) Hcap) as (c1 & Ec).
  destruct (C73_any_tag_refuted _ _ TC0 TC1 _ _ EE0 EE1 ec0 ec1 toy_schnorr ec1 sc139 toy_sha pos0 toy_pcg toy_delta pos1 toy_pcg1 toy_delta1 prm 2 1 set 6 None t true true i0 i1 (toy_m0 40) coin c0 2%N (entry (odd_p prm) Q) c1 toy_ro
    H0 H1 eq_refl eq_refl (gens_wf_new _ _ _ _ _) cap_256 (gens_wf_new _ _ _ _ _) cap_256 Ht ltac:(rewrite Eh; vm_compute; reflexivity) ltac:(lia) ltac:(rewrite Eh; discriminate) ltac:(lia) ltac:(left; lia) I0 I1 Hv M0 ltac:(lia) Ec
    ltac:(rewrite V0, V1; vm_compute; reflexivity)) as (s0' & s1' & p0 & p1 & Rn & K).
  exists prm, t, i0, i1, R, (entry (odd_p prm) Q), c1, s0', s1', p0, p1, coin, c0. split; [exact Eh|]. split; [exact ER|].
  assert (Eg : trapdoor_tag 2 prm R = Some (entry (odd_p prm) Q)) by (unfold trapdoor_tag, lone_node; rewrite EQ; reflexivity).
  split; [exact Eg|]. split; [unfold trapdoor; rewrite Eg; exact Ec|]. split; [exact M0|]. split; [exact Rn|exact K].
Qed.
(** The whole transaction of the second step, made, signed and accepted, with debug
    assertions (a test when this file is compiled). *)
Definition deep_tx (prm : SRParams TC0 TC1) t (k0 k1 : Fk) (v0 v1 : N) : option (SignedTx PF139) :=
  match harvest EE0 EE1 ec0 ec1 toy_schnorr ec1 sc139 toy_sha true true 2 prm t 0 0 k0 k1 (toy_m0 v0) (toy_m1 v1) (p_new toy_ro) (p_new toy_ro) with
  | Some (s0, s1, (path0, path1, c0, c1)) =>
    match r1cs_prove EE0 true (toy_rnd PM163) toy_pcg pos0 s0, r1cs_prove EE1 true (toy_rnd PM139) toy_pcg1 pos1 s1 with
    | Some (Ok (pf0, _)), Some (Ok (pf1, _)) => let bs := c_enc toy_codec (mkPour (P0 := TC0) (P1 := TC1) (C := TC1) pf0 pf1 path0 path1 (fk_pk k0) (fk_pk k1) c0 c1) in
       match sg_sign toy_schnorr (f139 17) bs (f139 7), sg_sign toy_schnorr (f139 19) bs (f139 8) with Some (r0, e0), Some (r1, e1) => Some (mkTx r0 e0 r1 e1 bs) | _, _ => None end
    | _, _ => None end
  | None => None end.
(* test data or vocabulary of statements, no code modelled *)
Definition C73_run_value : bool := Eval vm_compute in
  with_traps deep0 deep1 (fun prm set t => match deep_tx prm t deep0 deep1 100 7 with
    | Some tx => tx_ok prm t tx && match tx_facts tx with Some (true, true, false) => true | _ => false end | None => false end).
Example C73_run_test : C73_run_value = true.
Proof. reflexivity. Qed.
