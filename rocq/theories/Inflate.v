(** * A payer who mints more than they spend *)
From Verif Require Export ForgeVec PourProofs.
From Verif Require Import SoundSpec ForgeVecProofs CSProofs UtilProofs Lockstep CSMore R1CS R1CSSpec R1CSProofs R1CSVerif R1CSMain CSLogic GadgetProofs TreeProofs RerandMore SelSim PropsGadgets PropsSingle PropsRerand PropsSelRerand CircuitSize PropsSize PropsForgeVec.
Local Open Scope F_scope.

(** ** The attacker

    No code of the repository is modelled in this section: it is coin.rs 100-135 and
    186-223 with a first output whose value is not in the range. *)
Section Attack.
  Context {F0 F1 : PField} {P0 : SWCurve F1 F0} {P1 : SWCurve F0 F1} {FC : Field} {C : VSpace FC}.
  Variables (E0 : TrEnv P0) (E1 : TrEnv P1) (enc0 : P0 -> bytes) (enc1 : P1 -> bytes).
  Variables (sg : SigScheme FC C) (enc_pk : C -> bytes) (enc_sc : FC -> bytes) (sha3 : bytes -> bytes).

  (** One iteration of range_proof.rs 12-36, with any values for the gate *)
  Definition first_bit (a : option (F0 * F0)) : Prog F0 (Res Var) :=
    PAllocMul a (fun r => match r with
      | Err e => PRet (Err e)
      | Ok (a, b, o) => PConstrain (lc_var o) (PConstrain (lc_add (lc_var a) (lc_sub (lc_var b) (lc_const 1))) (PRet (Ok b)))
      end).
  (** Minting with any value [x]: the first bit of the range proof is [x] and all other bits
      are zero.  The output of the first gate is set to zero as the constraints demand, so
      this gate is violated.  The commitment has the coefficients [h] on the generators [H]. *)
  Definition cheat_mint (dbg : bool) (sl : SLParams P0) (x tag b : F0) (h : list F0) (s : PState F0) : option (PState F0 * (P0 * Var)) :=
    do (s, (c, vars)) <- commit_vec_H E0 (sl_pc sl) (sl_bp sl) s [x; tag] b h;
    do v <- nth_error vars 0;
    do (s, r) <- prun E0 (first_bit (Some (1 - x, x))) s;
    match r with
    | Err _ => None
    | Ok bit =>
      do (s, res) <- prun E0 (range_loop dbg (Some 0%N) 63 1 (1 + 1) (lc_sub (lc_var v) (var_mul bit 1)))
                       (p_set_wires s (p_aL s) (p_aR s) (removelast (p_aO s) ++ [0]));
      match res with Ok _ => Some (s, (c, v)) | Err _ => None end
    end.
  (** The value of the first output that makes the pour balanced *)
  Definition surplus (i0 i1 : Spending (F0 := F0) (F1 := F1) C) (m : Minting (F0 := F0) C) : F0 := fN (co_value (sp_coin i0)) + fN (co_value (sp_coin i1)) - fN (mi_value m).
  (** The coefficient on [H_0] that makes up for the violated gate: its product with the value
      of the second input is [x * (x - 1)] *)
  Definition surplus_h (i0 i1 : Spending (F0 := F0) (F1 := F1) C) (m : Minting (F0 := F0) C) : list F0 := [surplus i0 i1 m * (surplus i0 i1 m - 1) * finv (fN (co_value (sp_coin i1)))].
  (** The pour: the first output is the one above with any [tag] and blinding [b]; everything
      else is done by the honest functions. *)
  Definition inflate (dbg oc : bool) (L : nat) (prm : SRParams P0 P1) (t : CurveTree P0 P1) (i0 i1 : Spending (F0 := F0) (F1 := F1) C) (tag b : F0) (m : Minting (F0 := F0) C) (s0 : PState F0) (s1 : PState F1)
    : option (PState F0 * PState F1 * (Path P0 P1 * Path P0 P1 * P0 * P0)) :=
    do (s0, (mc0, mv0)) <- cheat_mint dbg (even_p prm) (surplus i0 i1 m) tag b (surplus_h i0 i1 m) s0;
    do (s0, (_, mc1, mv1)) <- mint_of E0 sg enc_pk enc_sc sha3 dbg (sl_pc (even_p prm)) prm m s0;
    do (s0, s1, (path0, iv0)) <- spend_of E0 E1 enc0 enc1 oc L (sl_pc (even_p prm)) (sl_pc (odd_p prm)) prm t i0 s0 s1;
    do (s0, s1, (path1, iv1)) <- spend_of E0 E1 enc0 enc1 oc L (sl_pc (even_p prm)) (sl_pc (odd_p prm)) prm t i1 s0 s1;
    Some (p_constrain s0 (balance mv0 mv1 iv0 iv1), s1, (path0, path1, mc0, mc1)).
End Attack.

Section Mint.
  Context {F0 F1 : PField} {P0 : SWCurve F1 F0} (E0 : TrEnv P0).
  Add Field FFinfm : (f_th F0).
  Notation cheat_mint := (cheat_mint (F1 := F1) E0).

  Lemma first_bit_same a o : simg eq (first_bit (F0 := F0) (Some a)) (first_bit o).
  Proof. constructor. intros [[x y] z]. repeat constructor. Qed.
  Lemma range_split dbg n i e v (t t1 : VState P0) b : vrun E0 (first_bit None) t = Some (t1, Ok b) ->
    vrun E0 (range_loop dbg None (Datatypes.S n) i e v) t = vrun E0 (range_loop dbg None n (Datatypes.S i) (e + e) (lc_sub v (var_mul b e))) t1.
  Proof.
    unfold first_bit. cbn [range_loop vrun]. destruct (v_allocate_multiplier t) as [t2 [[[x y] z]|err]]; cbn [vrun]; [|discriminate]. intros H. apply Some_inj, pair_inj in H as [<- H]. injection H as <-. reflexivity.
  Qed.

  (** the cheating prover's first output on a fresh state *)
  Lemma cheat_mint_total dbg sl x tag b h ro a a' r c0 : sl_commit sl [a; a'] r 0 = Some c0 ->
    exists s' c, cheat_mint dbg sl x tag b h (p_new ro) = Some (s', (c, VectorCommit 0 0)) /\ honest_from 1 s' /\ p_def s' = [] /\
      (issued s' (VectorCommit 0 0) /\ p_asg s' (VectorCommit 0 0) = x) /\
      (issued s' (MulL 0) /\ p_asg s' (MulL 0) = 1 - x) /\ (issued s' (MulR 0) /\ p_asg s' (MulR 0) = x) /\ (issued s' (MulO 0) /\ p_asg s' (MulO 0) = 0).
  Proof.
    intros Hc. destruct (commit_pair E0 sl (n := 0) (p_new (F := F0) ro) a a' r c0 (honest_new _) Hc) as (sx & Ex & _).
    assert (Hcm : exists G, share_G (sl_bp sl) 0 2 = Some G /\ length G = 2%nat).
    { unfold p_commit_vec in Ex. cbn [length] in Ex. destruct (share_G (sl_bp sl) 0 2) as [G|]; [|discriminate Ex]. exists G. split; [reflexivity|]. cbn [opt_bind] in Ex. unfold guard in Ex. cbn [length] in Ex.
      destruct (Nat.eqb_spec (Datatypes.S (length G)) 3) as [Hl|]; [lia|discriminate Ex]. }
    destruct Hcm as (G & EG & HG). unfold Inflate.cheat_mint, commit_vec_H. remember 63%nat as n eqn:En. cbn [length]. rewrite EG. cbn [opt_bind]. rewrite HG, Nat.eqb_refl. unfold guard. cbn [map seq nth_error opt_bind].
    set (cm := vadd _ (H_part (sl_bp sl) h)). unfold first_bit. cbn [prun p_allocate_multiplier p_new p_aL p_aR p_aO p_set_wires app length opt_bind]. unfold p_constrain. cbn [p_new p_tr p_cs p_aL p_aR p_aO p_v p_vb p_vec p_def p_pend removelast app length p_set_wires].
    match goal with |- context [prun E0 (range_loop _ _ _ _ _ _) ?st] => set (s2 := st) end.
    assert (I : forall v, p_var s2 v <> None -> issued s2 v) by (intros v Hv; split; [exact Hv|intros i Hi; discriminate Hi]).
    assert (Iv : issued s2 (VectorCommit 0 0)) by (apply I; discriminate). assert (IL : issued s2 (MulL 0)) by (apply I; discriminate). assert (IR : issued s2 (MulR 0)) by (apply I; discriminate). assert (IO : issued s2 (MulO 0)) by (apply I; discriminate).
    assert (Vv : p_asg s2 (VectorCommit 0 0) = x) by reflexivity. assert (VL : p_asg s2 (MulL 0) = 1 - x) by reflexivity. assert (VR : p_asg s2 (MulR 0) = x) by reflexivity. assert (VO : p_asg s2 (MulO 0) = 0) by reflexivity.
    assert (Hh : honest_from 1 s2).
    { split.
      - unfold gates_from. cbn [s2 p_aL p_aR p_aO length]. split; [reflexivity|]. split; [reflexivity|]. split; [|intros i Hi; discriminate Hi]. intros i. destruct i; cbn [Nat.add nth s2 p_aL p_aR p_aO p_set_wires]; ring.
      - constructor; [|constructor; [|constructor]].
        + split; [apply lc_ok_var; exact IO|]. rewrite lc_val_var. exact VO.
        + split; [apply lc_ok_add; [apply lc_ok_var; exact IL|apply lc_ok_sub_lc; [apply lc_ok_var; exact IR|apply lc_ok_const, issued_one]]|].
          rewrite lc_val_add, lc_val_sub, !lc_val_var, lc_val_const by reflexivity. change (1 - x + (x - 1) = 0). ring. }
    destruct (prover_complete (n := 1) E0 (range_loop dbg (Some 0%N) n 1 (1 + 1) (lc_sub (lc_var (VectorCommit 0 0)) (var_mul (MulR 0) 1))) (fun _ _ r => r = Ok tt) s2 Hh) as (s' & res & R & H2 & H3 & ok & _ & ->).
    { intros w Hw. apply range_loop_complete.
      - exact (agrees_one w s2 Hw).
      - apply issued_one.
      - apply lc_ok_sub_lc; [apply lc_ok_var; exact Iv|]. apply lc_ok_var_mul. exact IR.
      - rewrite En. lia.
      - rewrite lc_val_sub, lc_val_var, lc_val_var_mul. rewrite (Hw _ Iv), (Hw _ IR), Vv, VR. rewrite N.shiftr_0_l, N.mod_0_l by (apply N.pow_nonzero; discriminate). change (fN 0 : F0) with (0 : F0). ring.
      - reflexivity. }
    rewrite R. cbn [opt_bind]. eexists s', cm. split; [reflexivity|]. split; [exact H2|]. split; [exact (simg_def E0 _ _ _ (range_loop_same dbg 0%N n 1 _ _) _ _ _ R)|].
    destruct (H3 _ Iv) as [A1 B1], (H3 _ IL) as [A2 B2], (H3 _ IR) as [A3 B3], (H3 _ IO) as [A4 B4]. rewrite B1, B2, B3, B4. auto 10.
  Qed.
  Lemma cheat_mint_lockstep dbg sl x tag b h ro s' c v : cheat_mint dbg sl x tag b h (p_new ro) = Some (s', (c, v)) ->
    exists t', verify_mint E0 dbg c (v_new ro) = Some (t', v) /\ cheat E0 (sl_pc sl) (sl_bp sl) ro 0 h s' t'.
  Proof.
    unfold Inflate.cheat_mint, verify_mint, range_proof. change 64%nat with (Datatypes.S 63). generalize 63%nat. intros n. destruct (commit_vec_H E0 _ _ (p_new ro) [x; tag] b h) as [[s1 [c1 us]]|] eqn:Ec; [|discriminate]. cbn [opt_bind].
    pose proof (ch_commit_H E0 (sl_pc sl) (sl_bp sl) ro 0 h _ _ _ _ _ _ _ (ses_new E0 _ _ ro) eq_refl Ec) as H1. cbn [length] in H1.
    assert (Hu : us = snd (v_commit_vec E0 (v_new ro) 2 c1)).
    { unfold commit_vec_H in Ec. cbn [length] in Ec. destruct (share_G (sl_bp sl) 0 2) as [G|]; [|discriminate Ec]. cbn [opt_bind] in Ec. unfold guard in Ec. destruct (length G =? 2)%nat; [|discriminate Ec]. apply Some_inj in Ec. injection Ec as _ _ <-. reflexivity. }
    destruct (nth_error us 0) as [v'|] eqn:Ev; [|discriminate]. cbn [opt_bind].
    destruct (prun E0 (first_bit _) s1) as [[s2 [bit|e]]|] eqn:R2; try discriminate. cbn [opt_bind].
    destruct (lk_gadget _ _ _ _ (cheat_locked E0 _ _ ro 0 h) _ _ _ _ _ _ _ H1 (simg_same _ _ (first_bit_same _ None)) R2) as (t2 & Ht2 & H2).
    assert (HL : length (removelast (p_aO s2) ++ [0]) = length (p_aL s2) /\ length (p_aR s2) = length (p_aL s2)).
    { destruct (cheat_agree _ _ _ _ _ _ _ _ H2) as ([HR HO] & _). split; [|exact HR]. rewrite app_length. cbn [length].
      unfold first_bit in R2. cbn [prun p_allocate_multiplier] in R2. apply Some_inj, pair_inj in R2 as [R2 _]. rewrite <- HO. rewrite <- R2. cbn [p_constrain p_aO p_set_wires]. rewrite removelast_last, app_length. reflexivity. }
    pose proof (ch_wires E0 _ _ ro 0 h _ _ (p_aL s2) (p_aR s2) (removelast (p_aO s2) ++ [0]) H2 eq_refl (proj2 HL) (proj1 HL)) as H3.
    destruct (prun E0 (range_loop _ _ _ _ _ _) _) as [[s4 [u|e]]|] eqn:R4; try discriminate. intros H. cbn [opt_bind] in H. apply Some_inj in H. injection H as <- <- <-.
    assert (Hsg : same_gadget (range_loop (F := F0) dbg (Some 0%N) n 1 (1 + 1) (lc_sub (lc_var v') (var_mul bit 1))) (range_loop dbg None n 1 (1 + 1) (lc_sub (lc_var v') (var_mul bit 1)))).
    { apply simg_same, range_loop_same. }
    destruct (lk_gadget _ _ _ _ (cheat_locked E0 _ _ ro 0 h) _ _ _ _ _ _ _ H3 Hsg R4) as (t4 & Ht4 & H4).
    destruct (v_commit_vec E0 (v_new ro) 2 c1) as [t1 us'] eqn:Evc. cbn [fst snd] in *. subst us'. rewrite Ev. cbn [opt_bind]. rewrite (range_split dbg n 0 1 _ _ _ _ Ht2), Ht4. cbn [opt_bind]. destruct u. exists t4. split; [reflexivity|exact H4].
  Qed.
End Mint.

Section Pour.
  Context {F0 F1 : PField} {P0 : SWCurve F1 F0} {P1 : SWCurve F0 F1} {FC : Field} {C : VSpace FC}.
  Variables (E0 : TrEnv P0) (E1 : TrEnv P1) (enc0 : P0 -> bytes) (enc1 : P1 -> bytes).
  Variables (sg : SigScheme FC C) (enc_pk : C -> bytes) (enc_sc : FC -> bytes) (sha3 : bytes -> bytes).
  Add Field FFinf : (f_th F0).
  Notation inflate := (inflate E0 E1 enc0 enc1 sg enc_pk enc_sc sha3).
  Notation honest_input := (honest_input sg enc_pk enc_sc sha3).
  Notation surplus := (surplus (F0 := F0) (F1 := F1) (C := C)).
  Notation surplus_h := (surplus_h (F0 := F0) (F1 := F1) (C := C)).

  Lemma surplus_gate (x b : F0) : b <> 0 -> 0 = (1 - x) * x + b * (x * (x - 1) * finv b).
  Proof. intros Hb. field. exact Hb. Qed.

  (** The circuits of the cheating pour: the constraints hold, and all gates but the first *)
  Lemma inflate_total dbg oc L M prm set fuel height t i0 i1 tag b m s1 ro coin c1 :
    sl_good (even_p prm) -> sl_good (odd_p prm) -> sw_a P0 = 0 -> sw_a P1 = 0 ->
    from_set fuel L M prm set height = TOk t -> (N.of_nat (L ^ t_height t) < 2 ^ 64)%N -> (0 < M)%nat -> t_height t <> 0%nat ->
    honest_input oc L prm set t i0 -> honest_input oc L prm set t i1 ->
    (mi_value m < 2 ^ 64)%N -> coin_new sg enc_pk enc_sc sha3 (even_p prm) (mi_value m) (mi_pk m) (mi_pkr m) (mi_blinding m) = Some (coin, c1) ->
    honest s1 -> let x := surplus i0 i1 m in
    exists u1 u2 u3 u4 w3 w4 c0 p0 p1 v1 v2 v3 v4,
      cheat_mint E0 dbg (even_p prm) x tag b (surplus_h i0 i1 m) (p_new ro) = Some (u1, (c0, v1)) /\
      mint_of E0 sg enc_pk enc_sc sha3 dbg (sl_pc (even_p prm)) prm m u1 = Some (u2, (coin, c1, v2)) /\
      spend_of E0 E1 enc0 enc1 oc L (sl_pc (even_p prm)) (sl_pc (odd_p prm)) prm t i0 u2 s1 = Some (u3, w3, (p0, v3)) /\
      spend_of E0 E1 enc0 enc1 oc L (sl_pc (even_p prm)) (sl_pc (odd_p prm)) prm t i1 u3 w3 = Some (u4, w4, (p1, v4)) /\
      let s0' := p_constrain u4 (balance v1 v2 v3 v4) in
      honest_from 1 s0' /\ honest w4 /\ p_def s0' = [] /\ p_def w4 = p_def s1 /\
      p_asg s0' v4 = fN (co_value (sp_coin i1)) /\ issued s0' (MulL 0) /\ p_asg s0' (MulL 0) = 1 - x /\ p_asg s0' (MulR 0) = x /\ p_asg s0' (MulO 0) = 0.
  Proof.
    intros Hg0 Hg1 Ha0 Ha1 Ht Hc HM Hh (k0 & leaf0 & pk0 & ev0 & od0 & I0 & N0 & C0 & _ & W0 & A0 & B0) (k1 & leaf1 & pk1 & ev1 & od1 & I1 & N1 & C1 & _ & W1 & A1 & B1) V1 M1 Hh1 x.
    unfold mint_of, spend_of. destruct (coin_new_spec _ _ _ _ _ _ _ _ _ _ _ M1) as (rpk & _ & _ & Hcm).
    destruct (cheat_mint_total E0 dbg (even_p prm) x tag b (surplus_h i0 i1 m) ro _ _ _ _ Hcm) as (u1 & c0 & R1 & Q1 & D1 & (S1 & E1') & (SL & EL) & (SR & ER) & (SO & EO)).
    destruct (mint_total E0 sg enc_pk enc_sc sha3 dbg (even_p prm) _ _ _ _ _ _ u1 Q1 M1 V1) as (u2 & v2 & R2 & Q2 & K2 & S2 & E2' & D2).
    rewrite I0. destruct (spend_total E0 E1 enc0 enc1 sg enc_pk enc_sc sha3 oc L M prm set fuel height t k0 leaf0 ev0 od0 (sp_os i0) (sp_es i0) u2 s1 _ _ _ _ _ Hg0 Hg1 Ha0 Ha1 Ht Hc HM Hh N0 W0 A0 B0 C0 Q2 Hh1) as (u3 & w3 & p0 & v3 & R3 & Q3 & Q3' & K3 & K3' & S3 & E3' & D3 & D3').
    rewrite I1. destruct (spend_total E0 E1 enc0 enc1 sg enc_pk enc_sc sha3 oc L M prm set fuel height t k1 leaf1 ev1 od1 (sp_os i1) (sp_es i1) u3 w3 _ _ _ _ _ Hg0 Hg1 Ha0 Ha1 Ht Hc HM Hh N1 W1 A1 B1 C1 Q3 Q3') as (u4 & w4 & p1 & v4 & R4 & Q4 & Q4' & K4 & K4' & S4 & E4' & D4 & D4').
    pose proof (keeps_trans _ _ _ K2 (keeps_trans _ _ _ K3 K4)) as K. destruct (K4 _ S3) as [S3' V3']. destruct (keeps_trans _ _ _ K3 K4 _ S2) as [S2' V2']. destruct (K _ S1) as [S1' V1'].
    destruct (constrain_honest (n := 1) u4 (balance (VectorCommit 0 0) v2 v3 v4)) as [Hh3 Hk3]; [exact Q4| | |].
    { unfold balance. repeat apply lc_ok_sub_lc; try (apply lc_ok_add); apply lc_ok_var; assumption. }
    { unfold balance. rewrite !lc_val_sub, lc_val_add, !lc_val_var. rewrite V1', V2', V3', E1', E2', E3', E4'. unfold x, Inflate.surplus. ring. }
    exists u1, u2, u3, u4, w3, w4, c0, p0, p1, (VectorCommit 0 0), v2, v3, v4. split; [exact R1|]. split; [exact R2|]. split; [exact R3|]. split; [exact R4|].
    split; [exact Hh3|]. split; [exact Q4'|]. split; [cbn; congruence|]. split; [congruence|]. split; [exact E4'|].
    destruct (K _ SL) as [SL' VL'], (K _ SR) as [SR' VR'], (K _ SO) as [SO' VO']. split; [exact SL'|]. split; [exact (eq_trans VL' EL)|]. split; [exact (eq_trans VR' ER)|exact (eq_trans VO' EO)].
  Qed.

  Lemma cheat_vec_length pc g tr k h s (t : VState P0) : cheat E0 pc g tr k h s t -> length (p_vec s) = length (v_vec t).
  Proof. intros H. destruct (cheat_agree _ _ _ _ _ _ _ _ H) as (_ & _ & t0 & Ha & ->). cbn [with_H v_vec]. rewrite upd_length, (ag_vec _ _ _ _ Ha), map_length. reflexivity. Qed.
  Lemma cheat_def pc g tr k h s (t : VState P0) : cheat E0 pc g tr k h s t -> p_def s = [] -> v_def t = [].
  Proof. intros H Hd. destruct (cheat_agree _ _ _ _ _ _ _ _ H) as (_ & _ & t0 & Ha & ->). cbn [with_H v_def]. pose proof (ag_def _ _ _ _ Ha) as Hf. rewrite Hd in Hf. inversion Hf. reflexivity. Qed.
  Lemma repeat_even {A} (a : A) n (d : A) (x y : A) : Nat.even (length ([x; y] ++ repeat a n ++ [d] ++ repeat a n ++ [d])) = true.
  Proof. rewrite !app_length, repeat_length. cbn [length]. apply Nat.even_spec. exists (n + 2)%nat. lia. Qed.

  Lemma inflate_accepted dbg oc L M prm set fuel height t i0 i1 tag b m ro coin c1 :
    sl_good (even_p prm) -> sl_good (odd_p prm) -> countable (odd_p prm) -> sw_a P0 = 0 -> sw_a P1 = 0 ->
    gens_wf (sl_bp (even_p prm)) -> (gens_capacity (sl_bp (even_p prm)) < 2 ^ 32)%nat -> gens_wf (sl_bp (odd_p prm)) -> (gens_capacity (sl_bp (odd_p prm)) < 2 ^ 32)%nat ->
    from_set fuel L M prm set height = TOk t -> (N.of_nat (L ^ t_height t) < 2 ^ 64)%N -> (0 < M)%nat -> t_height t <> 0%nat -> (2 <= L)%nat -> (L <= 128 \/ 2 <= t_height t)%nat ->
    honest_input oc L prm set t i0 -> honest_input oc L prm set t i1 -> (fN (co_value (sp_coin i1)) : F0) <> 0 ->
    (mi_value m < 2 ^ 64)%N -> coin_new sg enc_pk enc_sc sha3 (even_p prm) (mi_value m) (mi_pk m) (mi_pkr m) (mi_blinding m) = Some (coin, c1) ->
    exists s0' s1' p0 p1 c0, inflate dbg oc L prm t i0 i1 tag b m (p_new ro) (p_new ro) = Some (s0', s1', (p0, p1, c0, c1)) /\
      forall rnd0 pf0 dbg1 rnd1 pf1, forge_vec E0 rnd0 (sl_pc (even_p prm)) (sl_bp (even_p prm)) s0' 0 (surplus_h i0 i1 m) = Some pf0 ->
        Forall (fun P => P <> v0) (validated_points (op_degree_of (length (p_vec s0'))) pf0) -> good_proof E1 dbg1 rnd1 (sl_pc (odd_p prm)) (sl_bp (odd_p prm)) s1' pf1 ->
      forall dbg' rr0 rr1, exists vt0 vt1, pour_verify E0 E1 enc0 enc1 enc_pk sha3 dbg' L prm t ro rr0 rr1 (mkPour pf0 pf1 p0 p1 (sp_pk i0) (sp_pk i1) c0 c1) = Some (vt0, vt1) /\
        batch_verify [vt0] [] (sl_pc (even_p prm)) (sl_bp (even_p prm)) = Some (Ok tt) /\ batch_verify [vt1] [] (sl_pc (odd_p prm)) (sl_bp (odd_p prm)) = Some (Ok tt).
  Proof.
    intros Hg0 Hg1 Hcnt Ha0 Ha1 W0 B0 W1 B1 Ht Hc HM Hh HL HD I0 I1 Hb1 V1 M1.
    destruct (inflate_total dbg oc L M prm set fuel height t i0 i1 tag b m (p_new ro) ro coin c1 Hg0 Hg1 Ha0 Ha1 Ht Hc HM Hh I0 I1 V1 M1 (honest_new _))
      as (u1 & u2 & u3 & u4 & w3 & w4 & c0 & p0 & p1 & v1 & v2 & v3 & v4 & R1 & R2 & R3 & R4 & H0 & H1 & D0 & D1 & X4 & IL & XL & XR & XO).
    exists (p_constrain u4 (balance v1 v2 v3 v4)), w4, p0, p1, c0. unfold Inflate.inflate. rewrite R1. cbn [opt_bind]. rewrite R2. cbn [opt_bind]. rewrite R3. cbn [opt_bind]. rewrite R4. cbn [opt_bind]. split; [reflexivity|].
    intros rnd0 pf0 dbg1 rnd1 pf1 G0 NZ G1 dbg' rr0 rr1.
    pose proof (honest_tag _ _ _ _ _ _ _ _ _ _ I0) as T0. pose proof (honest_tag _ _ _ _ _ _ _ _ _ _ I1) as T1.
    set (h := surplus_h i0 i1 m) in *. pose proof (cheat_locked E0 (sl_pc (even_p prm)) (sl_bp (even_p prm)) ro 0 h) as K0. pose proof (session_locked E1 (sl_pc (odd_p prm)) (sl_bp (odd_p prm)) ro) as K1.
    destruct (cheat_mint_lockstep E0 dbg _ _ _ _ _ _ _ _ _ R1) as (t2 & V2 & Hs2).
    destruct (mint_lockstep_R E0 sg enc_pk enc_sc sha3 _ dbg (even_p prm) _ _ _ _ _ _ _ _ _ _ K0 Hs2 R2) as (t3 & V3 & Hs3).
    destruct (spend_lockstep_R E0 E1 enc0 enc1 enc_pk sha3 _ _ oc L M prm set fuel height t _ _ _ _ _ _ _ _ _ _ _ _ _ K0 K1 Hg0 Hg1 Ht Hc HM Hh T0 Hs3 (ses_new E1 _ _ ro) R3) as (p0' & t4 & y4 & Hp0 & V4 & O4 & L4 & Hs4 & Hy4).
    destruct (spend_lockstep_R E0 E1 enc0 enc1 enc_pk sha3 _ _ oc L M prm set fuel height t _ _ _ _ _ _ _ _ _ _ _ _ _ K0 K1 Hg0 Hg1 Ht Hc HM Hh T1 Hs4 Hy4 R4) as (p1' & t5 & y5 & Hp1 & V5 & O5 & L5 & Hs5 & Hy5).
    pose proof (constrain_R E0 _ _ _ _ _ (balance v1 v2 v3 v4) K0 Hs5) as Hs6.
    set (s0' := p_constrain u4 (balance v1 v2 v3 v4)) in *. set (t0' := v_constrain t5 (balance v1 v2 v3 v4)) in *.
    assert (Hv0 : pour_dim E0 enc1 enc_pk sha3 2 dbg L prm t c0 c1 (sp_pk i0) (sp_pk i1) p0' p1' (v_new ro) = Some t0').
    { unfold pour_dim. rewrite V2. cbn [opt_bind]. rewrite V3. cbn [opt_bind]. rewrite V4. cbn [opt_bind]. rewrite V5. reflexivity. }
    assert (Hv1 : pour_odd_circuit E1 enc0 L prm t p0' p1' (v_new ro) = Some y5) by (unfold pour_odd_circuit; rewrite O4; exact O5).
    destruct (pour_even_size E0 enc1 enc_pk sha3 2 dbg L prm t _ _ _ _ _ _ _ _ _ _ _ (from_set_width _ _ _ _ _ _ _ Ht) Hcnt ltac:(left; lia) Hp0 Hp1 L4 L5 Hv0) as [_ Q0].
    assert (Z : (128 <= v_size t0')%nat /\ ((2 <= t_height t)%nat -> (L <= v_size t0')%nat)).
    { destruct (spend_grows _ _ _ _ _ _ _ _ _ _ _ _ _ V4) as (g4 & G4 & G4a & G4b), (spend_grows _ _ _ _ _ _ _ _ _ _ _ _ _ V5) as (g5 & G5 & G5a & G5b).
      pose proof (mint_num _ _ _ _ _ _ V2) as Z2. pose proof (mint_num _ _ _ _ _ _ V3) as Z3. pose proof (proj1 (grows_trans _ _ _ G4a (grows_trans _ _ _ G4b (grows_trans _ _ _ G5a G5b)))) as Hn. split.
      - apply size_at_least. left. cbn. lia.
      - intros Hh2. destruct I0 as (k0 & leaf0 & pk0 & ev0 & od0 & _ & _ & _ & _ & Hw0 & _).
        assert (Z1 : (1 <= v_num t3)%nat) by lia. pose proof (even_size E0 enc1 oc L M prm set fuel height t _ ev0 od0 _ _ _ _ Ht Hc HM Hh2 Hw0 Hp0 L4 Z1 G4) as HLs. eapply Nat.le_trans; [exact HLs|].
        apply grows_size. exact (grows_trans _ _ _ G4b (grows_trans _ _ _ G5a (grows_trans _ _ _ G5b (constrain_grows _ _)))). }
    destruct (spend_sound _ _ _ _ _ _ _ _ _ _ _ _ _ V5) as (k1 & _ & Lk & Ev4 & _).
    pose proof (cheat_vec_length _ _ _ _ _ _ _ Hs6) as Lv. pose proof (cheat_def _ _ _ _ _ _ _ Hs6 D0) as Dv.
    assert (Lv' : length (p_vec s0') = Datatypes.S k1) by (rewrite Lv; exact Lk).
    assert (Hacc : forall dbg rr, r1cs_verify E0 dbg rr pf0 (sl_pc (even_p prm)) (sl_bp (even_p prm)) t0' = Some (Ok tt)).
    { apply (C71_gates_forgeable _ _ E0 _ _ ro 0 k1 h s0' t0' Hs6 Dv W0 B0) with (rnd := rnd0); [| | | |exact G0|exact NZ].
      - left. split; [|lia]. rewrite Lv. assert (El : length (v_vec t0') = length (dims t0')) by (unfold dims; rewrite map_length; reflexivity). rewrite El, Q0. apply repeat_even.
      - unfold h, Inflate.surplus_h. cbn [length]. pose proof (p_size_ge s0') as Hge. assert (Hlt : (0 < length (p_aL s0'))%nat); [|lia].
        destruct IL as [IL _]. cbn [p_var] in IL. apply nth_error_Some. exact IL.
      - eapply Forall_impl; [|exact (proj2 H0)]. intros lc [_ Hz]. exact Hz.
      - intros [|i].
        + rewrite XL, XR, XO. unfold h, Inflate.surplus_h. cbn [nth]. rewrite <- Ev4, X4. apply surplus_gate. exact Hb1.
        + replace (nth (Datatypes.S i) h 0) with (0 : F0) by (unfold h, Inflate.surplus_h; destruct i; reflexivity).
          destruct H0 as [(_ & _ & Hgt & _) _]. specialize (Hgt i). cbn [Nat.add] in Hgt.
          assert (Hn : forall l : list F0, match nth_error l (Datatypes.S i) with Some x => x | None => 0 end = nth (Datatypes.S i) l 0).
          { intros l. destruct (nth_error l (Datatypes.S i)) eqn:En; [symmetry; apply nth_error_nth; exact En|]. symmetry. apply nth_overflow. apply nth_error_None. exact En. }
          unfold p_asg at 1 2 3. cbn [p_var]. rewrite !Hn, Hgt. ring. }
    rewrite (pour_dbg _ _ _ _ _ _ dbg') in Hv0. destruct (pour_wider E0 enc1 enc_pk sha3 L L 2 _ _ _ _ _ _ _ _ _ _ _ _ _ (wider_refl L (v_new ro)) ltac:(lia) Hv0) as (t0r & Hr & Hw).
    specialize (Hacc dbg' rr0). unfold r1cs_verify in Hacc. destruct (v_scalars_and_points E0 dbg' rr0 pf0 t0') as [[vt0|]|] eqn:Q; try discriminate Hacc.
    destruct (good_tuple E1 dbg1 rnd1 _ _ _ _ _ pf1 dbg' rr1 Hy5 D1 H1 W1 B1 G1) as (vt1 & Q1 & KB1).
    exists vt0, vt1. split; [|split; [exact Hacc|exact KB1]]. unfold Coin.pour_verify. cbn [po_path0 po_path1]. rewrite Hp0. cbn [opt_bind]. rewrite Hp1. cbn [opt_bind].
    rewrite pour_even_dim. cbn [po_minted0 po_minted1 po_pk0 po_pk1].
    rewrite Hr. cbn [opt_bind po_even po_odd]. rewrite (v_scalars_wider E0 L dbg' rr0 pf0 t0r t0' vt0 Hw Dv); [|apply (wider_size L _ _ Hw); destruct Z, HD; [lia|auto]|exact Q].
    cbn [unwrap opt_bind]. rewrite Hv1. cbn [opt_bind]. rewrite Q1. reflexivity.
  Qed.
End Pour.
