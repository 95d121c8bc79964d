(** * Spending coins that lie below the leaves of the tree *)
From Verif Require Export ForgePour.
From Verif Require Import CSProofs UtilProofs Lockstep CSMore R1CS R1CSSpec R1CSProofs R1CSVerif R1CSMain CSLogic GadgetProofs TreeProofs RerandMore SelSim PropsGadgets PropsSingle PropsRerand PropsSelRerand.
Local Open Scope F_scope.

(** ** Pours put together from parts

    No code modelled: vocabulary to treat several payers at once.  A part for an output
    (input) runs in every pair of a prover and a verifier that agree, keeps the prover's
    assignment satisfying, and makes the verifier follow with [verify_mint] (with the two
    halves of [verify_spend]). *)
Section Parts.
  Context {F0 F1 : PField} {P0 : SWCurve F1 F0} {P1 : SWCurve F0 F1} {FC : Field} {C : VSpace FC}.
  Variables (E0 : TrEnv P0) (E1 : TrEnv P1) (enc0 : P0 -> bytes) (enc1 : P1 -> bytes).
  Variables (enc_pk : C -> bytes) (sha3 : bytes -> bytes).
  Add Field FFparts : (f_th F0).

  (* vocabulary of specifications and proofs, no code modelled *)
  Definition MintF := PState F0 -> option (PState F0 * (P0 * Var)).
  (* vocabulary of specifications and proofs, no code modelled *)
  Definition SpendF := PState F0 -> PState F1 -> option (PState F0 * PState F1 * (Path P0 P1 * Var)).
  (* vocabulary of specifications and proofs, no code modelled *)
  Definition pour_parts (f0 f1 : MintF) (g0 g1 : SpendF) (s0 : PState F0) (s1 : PState F1) : option (PState F0 * PState F1 * (Path P0 P1 * Path P0 P1 * P0 * P0)) :=
    do (s0, (mc0, mv0)) <- f0 s0;
    do (s0, (mc1, mv1)) <- f1 s0;
    do (s0, s1, (path0, iv0)) <- g0 s0 s1;
    do (s0, s1, (path1, iv1)) <- g1 s0 s1;
    Some (p_constrain s0 (balance mv0 mv1 iv0 iv1), s1, (path0, path1, mc0, mc1)).

  (* vocabulary of specifications and proofs, no code modelled *)
  Definition mint_part (dbg : bool) (sl : SLParams P0) (f : MintF) (c : P0) (x : F0) : Prop :=
    forall tr s t, session E0 (sl_pc sl) (sl_bp sl) tr s t -> honest s ->
    exists s' t' v, f s = Some (s', (c, v)) /\ verify_mint E0 dbg c t = Some (t', v) /\ session E0 (sl_pc sl) (sl_bp sl) tr s' t' /\
      honest s' /\ keeps s s' /\ issued s' v /\ p_asg s' v = x /\ p_def s' = p_def s.
  (* vocabulary of specifications and proofs, no code modelled *)
  Definition spend_part (L len : nat) (prm : SRParams P0 P1) (t : CurveTree P0 P1) (pk : C) (g : SpendF) (x : F0) : Prop :=
    forall tr0 tr1 s0 s1 t0 t1, session E0 (sl_pc (even_p prm)) (sl_bp (even_p prm)) tr0 s0 t0 -> session E1 (sl_pc (odd_p prm)) (sl_bp (odd_p prm)) tr1 s1 t1 -> honest s0 -> honest s1 ->
    exists s0' s1' p v p' t0' t1', g s0 s1 = Some (s0', s1', (p, v)) /\ verification_commitments t p = Some p' /\
      spend_dim E0 enc1 enc_pk sha3 2 L prm t pk p' t0 = Some (t0', v) /\ odd_gadget E1 enc0 L prm t p' t1 = Some t1' /\
      session E0 (sl_pc (even_p prm)) (sl_bp (even_p prm)) tr0 s0' t0' /\ session E1 (sl_pc (odd_p prm)) (sl_bp (odd_p prm)) tr1 s1' t1' /\
      honest s0' /\ honest s1' /\ keeps s0 s0' /\ keeps s1 s1' /\ issued s0' v /\ p_asg s0' v = x /\ p_def s0' = p_def s0 /\ p_def s1' = p_def s1 /\
      (length (pa_even p) + length (pa_odd p) + 1 = len)%nat /\ ((2 <= len)%nat -> (1 <= v_num t0)%nat -> (L <= v_size t0')%nat).

  Lemma parts_accepted dbg L len0 len1 prm t f0 f1 g0 g1 pk0 pk1 c0 c1 x0 x1 y0 y1 ro :
    mint_part dbg (even_p prm) f0 c0 x0 -> mint_part dbg (even_p prm) f1 c1 x1 -> spend_part L len0 prm t pk0 g0 y0 -> spend_part L len1 prm t pk1 g1 y1 -> x0 + x1 = y0 + y1 ->
    (2 <= L)%nat -> (L <= 128 \/ 2 <= len0)%nat ->
    gens_wf (sl_bp (even_p prm)) -> (gens_capacity (sl_bp (even_p prm)) < 2 ^ 32)%nat -> gens_wf (sl_bp (odd_p prm)) -> (gens_capacity (sl_bp (odd_p prm)) < 2 ^ 32)%nat ->
    exists s0' s1' path0 path1, pour_parts f0 f1 g0 g1 (p_new ro) (p_new ro) = Some (s0', s1', (path0, path1, c0, c1)) /\
      (length (pa_even path0) + length (pa_odd path0) + 1 = len0)%nat /\ (length (pa_even path1) + length (pa_odd path1) + 1 = len1)%nat /\
      forall dbg0 rnd0 pf0 dbg1 rnd1 pf1, good_proof E0 dbg0 rnd0 (sl_pc (even_p prm)) (sl_bp (even_p prm)) s0' pf0 -> good_proof E1 dbg1 rnd1 (sl_pc (odd_p prm)) (sl_bp (odd_p prm)) s1' pf1 ->
      forall dbg' rr0 rr1, exists vt0 vt1, pour_verify E0 E1 enc0 enc1 enc_pk sha3 dbg' L prm t ro rr0 rr1 (mkPour pf0 pf1 path0 path1 pk0 pk1 c0 c1) = Some (vt0, vt1) /\
        batch_verify [vt0] [] (sl_pc (even_p prm)) (sl_bp (even_p prm)) = Some (Ok tt) /\ batch_verify [vt1] [] (sl_pc (odd_p prm)) (sl_bp (odd_p prm)) = Some (Ok tt).
  Proof.
    intros Hf0 Hf1 Hg0 Hg1 Hbal HL HD W0 B0 W1 B1. unfold pour_parts.
    destruct (Hf0 ro (p_new ro) (v_new ro) (ses_new E0 _ _ ro) (honest_new ro)) as (u1 & t2 & v1 & R1 & V2 & Hs2 & Q1 & K1 & S1 & E1' & D1). rewrite R1. cbn [opt_bind].
    destruct (Hf1 ro u1 t2 Hs2 Q1) as (u2 & t3 & v2 & R2 & V3 & Hs3 & Q2 & K2 & S2 & E2' & D2). rewrite R2. cbn [opt_bind].
    destruct (Hg0 ro ro u2 (p_new ro) t3 (v_new ro) Hs3 (ses_new E1 _ _ ro) Q2 (honest_new ro)) as (u3 & w3 & p0 & v3 & p0' & t4 & y4 & R3 & Hp0 & V4 & O4 & Hs4 & Hy4 & Q3 & Q3' & K3 & K3' & S3 & E3' & D3 & D3' & N4 & W4). rewrite R3. cbn [opt_bind].
    destruct (Hg1 ro ro u3 w3 t4 y4 Hs4 Hy4 Q3 Q3') as (u4 & w4 & p1 & v4 & p1' & t5 & y5 & R4 & Hp1 & V5 & O5 & Hs5 & Hy5 & Q4 & Q4' & K4 & K4' & S4 & E4' & D4 & D4' & N5 & _). rewrite R4. cbn [opt_bind].
    destruct (K4 _ S3) as [S3' V3']. destruct (keeps_trans _ _ _ K3 K4 _ S2) as [S2' V2']. destruct (keeps_trans _ _ _ K2 (keeps_trans _ _ _ K3 K4) _ S1) as [S1' V1'].
    destruct (constrain_honest (n := 0) u4 (balance v1 v2 v3 v4)) as [Hh3 Hk3]; [exact Q4| | |].
    { unfold balance. repeat apply lc_ok_sub_lc; try (apply lc_ok_add); apply lc_ok_var; assumption. }
    { unfold balance. rewrite !lc_val_sub, lc_val_add, !lc_val_var. rewrite V1', V2', V3', E1', E2', E3', E4'. transitivity (x0 + x1 - (y0 + y1)); [ring|]. rewrite Hbal. ring. }
    set (s0' := p_constrain u4 (balance v1 v2 v3 v4)). set (t0' := v_constrain t5 (balance v1 v2 v3 v4)).
    eexists s0', w4, p0, p1. split; [reflexivity|]. split; [exact N4|]. split; [exact N5|]. intros dbg0 rnd0 pf0 dbg1 rnd1 pf1 G0 G1 dbg' rr0 rr1.
    assert (Hd0 : p_def s0' = []) by (cbn; rewrite D4, D3, D2, D1; reflexivity). assert (Hd1 : p_def w4 = []) by (rewrite D4', D3'; reflexivity).
    assert (Hs0 : session E0 (sl_pc (even_p prm)) (sl_bp (even_p prm)) ro s0' t0') by (apply constrain_session; exact Hs5).
    assert (Hv0 : pour_dim E0 enc1 enc_pk sha3 2 dbg L prm t c0 c1 pk0 pk1 p0' p1' (v_new ro) = Some t0').
    { unfold pour_dim. rewrite V2. cbn [opt_bind]. rewrite V3. cbn [opt_bind]. rewrite V4. cbn [opt_bind]. rewrite V5. cbn [opt_bind]. reflexivity. }
    assert (Hv1 : pour_odd_circuit E1 enc0 L prm t p0' p1' (v_new ro) = Some y5) by (unfold pour_odd_circuit; rewrite O4; cbn [opt_bind]; exact O5).
    assert (Z1 : (128 <= v_size t0')%nat /\ ((2 <= len0)%nat -> (L <= v_size t0')%nat)).
    { destruct (spend_grows _ _ _ _ _ _ _ _ _ _ _ _ _ V4) as (g4 & G4 & G4a & G4b), (spend_grows _ _ _ _ _ _ _ _ _ _ _ _ _ V5) as (g5 & G5 & G5a & G5b).
      pose proof (mint_num _ _ _ _ _ _ V2) as Z2. pose proof (mint_num _ _ _ _ _ _ V3) as Z3. pose proof (proj1 (grows_trans _ _ _ G4a (grows_trans _ _ _ G4b (grows_trans _ _ _ G5a G5b)))) as Hn. split.
      - apply size_at_least. left. cbn. lia.
      - intros Hw. eapply Nat.le_trans; [apply (W4 Hw); lia|]. apply grows_size. exact (grows_trans _ _ _ G5a (grows_trans _ _ _ G5b (constrain_grows _ _))). }
    destruct Z1 as [Z1 Z2].
    rewrite (pour_dbg _ _ _ _ _ _ dbg') in Hv0. destruct (pour_wider E0 enc1 enc_pk sha3 L L 2 _ _ _ _ _ _ _ _ _ _ _ _ _ (wider_refl L (v_new ro)) ltac:(lia) Hv0) as (t0r & Hr & Hw).
    destruct (good_tuple E0 dbg0 rnd0 _ _ _ _ _ pf0 dbg' rr0 Hs0 Hd0 Hh3 W0 B0 G0) as (vt0 & Y0 & X0). destruct (good_tuple E1 dbg1 rnd1 _ _ _ _ _ pf1 dbg' rr1 Hy5 Hd1 Q4' W1 B1 G1) as (vt1 & Y1 & X1).
    exists vt0, vt1. split; [|split; assumption]. unfold Coin.pour_verify. cbn [po_path0 po_path1]. rewrite Hp0. cbn [opt_bind]. rewrite Hp1. cbn [opt_bind].
    rewrite pour_even_dim. cbn [po_minted0 po_minted1 po_pk0 po_pk1].
    rewrite Hr. cbn [opt_bind po_even po_odd]. rewrite (v_scalars_wider E0 L dbg' rr0 pf0 t0r t0' vt0 Hw); [| |apply (wider_size L _ _ Hw); destruct HD; [lia|auto]|exact Y0].
    2:{ destruct (session_agree _ _ _ _ _ _ Hs0) as [_ Ha]. pose proof (ag_def _ _ _ _ Ha) as Hdf. rewrite Hd0 in Hdf. destruct (v_def t0'); [reflexivity|inversion Hdf]. }
    cbn [unwrap opt_bind]. rewrite Hv1. cbn [opt_bind]. rewrite Y1. reflexivity.
  Qed.
End Parts.

(** ** The attacker

    No code of the repository is modelled in this section: it is coin.rs 36-54 with a tag that
    is not the hash of a key, and coin.rs 100-135 with a longer path. *)
Section Attack.
  Context {F0 F1 : PField} {P0 : SWCurve F1 F0} {P1 : SWCurve F0 F1} {FC : Field} {C : VSpace FC}.
  Variables (E0 : TrEnv P0) (E1 : TrEnv P1) (enc0 : P0 -> bytes) (enc1 : P1 -> bytes).
  Variables (sg : SigScheme FC C) (enc_pk : C -> bytes) (enc_sc : FC -> bytes) (sha3 : bytes -> bytes).

  (** A coin with an arbitrary tag and no blinding *)
  Definition tag_mint (dbg : bool) (sl : SLParams P0) (value : N) (tag : F0) (s : PState F0) : option (PState F0 * (P0 * Var)) :=
    do (s1, (comm, vars)) <- p_commit_vec E0 (sl_pc sl) (sl_bp sl) s [fN value; tag] 0;
    do v <- nth_error vars 0;
    do (s2, res) <- prun E0 (range_proof dbg (lc_var v) (Some value) 64) s1;
    match res with Ok _ => Some (s2, (comm, v)) | Err _ => None end.

  (** The x-coordinate under which a node is entered in its parent *)
  Definition entry {F S : PField} {K : SWCurve F S} (prm : SLParams K) (c : K) : F := match coords (vadd c (sl_delta prm)) with Some xy => fst xy | None => 0 end.
  (** A node with a single child *)
  Definition lone_node (L : nat) (prm : SRParams P0 P1) (R : P0) : option P1 := sl_commit (odd_p prm) (entry (even_p prm) R :: zeros (L - 1)) 0 0.
  (** The tag of a coin that is at the same time an inner node above [R]: [R] is the only
      child of the only odd child of the coin. *)
  Definition trapdoor_tag (L : nat) (prm : SRParams P0 P1) (R : P0) : option F0 := option_map (entry (odd_p prm)) (lone_node L prm R).
  (** The commitment of such a coin *)
  Definition trapdoor (L : nat) (prm : SRParams P0 P1) (value : N) (R : P0) : option P0 :=
    do tag <- trapdoor_tag L prm R; sl_commit (even_p prm) [fN value; tag] 0 0.

  (** [prove_spend] for a made-up coin, along a given path *)
  Definition spend_along (prm : SRParams P0 P1) (evens : list (Wit F0 P1)) (odds : list (Wit F1 P0)) (k : Fake (F0 := F0) (F1 := F1) C) (s0 : PState F0) (s1 : PState F1) : option (PState F0 * PState F1 * (Path P0 P1 * Var)) :=
    do (s0, s1, (path, rerandomization)) <- sr_prove E0 E1 enc0 enc1 (sl_pc (even_p prm)) (sl_pc (odd_p prm)) prm evens odds (fk_os k) (fk_es k) s0 s1;
    do (s0, (comm, vars)) <- p_commit_vec E0 (sl_pc (even_p prm)) (sl_bp (even_p prm)) s0 [fk_value k; pk_to_scalar enc_pk sha3 (fk_pk k)] (fk_blinding k + rerandomization);
    guard (veqb (pa_selected path) comm)
      (do v0 <- nth_error vars 0; do v1 <- nth_error vars 1;
       Some (p_constrain s0 (lc_sub (lc_var v1) (lc_const (pk_to_scalar enc_pk sha3 (fk_pk k)))), s1, (path, v0))).
  (** The same with a path that continues below the leaf, whose value is [cover] *)
  Definition deep_spend (oc : bool) (L : nat) (prm : SRParams P0 P1) (t : CurveTree P0 P1) (cover : N) (k : Fake (F0 := F0) (F1 := F1) C) (s0 : PState F0) (s1 : PState F1) : option (PState F0 * PState F1 * (Path P0 P1 * Var)) :=
    do (evens, odds) <- tree_witness oc L t (fk_index k) 0 prm;
    do R <- fake_commitment enc_pk sha3 (even_p prm) k;
    do Q <- lone_node L prm R;
    spend_along prm (evens ++ [mkWit ([fN cover; entry (odd_p prm) Q] ++ zeros (L - 2)) Q]) (odds ++ [mkWit (entry (even_p prm) R :: zeros (L - 1)) R]) k s0 s1.

  (** First step: a pour that spends two coins of the payer and mints an honest coin and a
      trapdoor *)
  Definition plant (dbg oc : bool) (L : nat) (prm : SRParams P0 P1) (t : CurveTree P0 P1) (i0 i1 : Spending (F0 := F0) (F1 := F1) C) (m : Minting (F0 := F0) C) (cover : N) (tag : F0) :=
    pour_parts (fun s => option_map (fun r => (fst r, (snd (fst (snd r)), snd (snd r)))) (mint_of E0 sg enc_pk enc_sc sha3 dbg (sl_pc (even_p prm)) prm m s)) (tag_mint dbg (even_p prm) cover tag)
      (spend_of E0 E1 enc0 enc1 oc L (sl_pc (even_p prm)) (sl_pc (odd_p prm)) prm t i0) (spend_of E0 E1 enc0 enc1 oc L (sl_pc (even_p prm)) (sl_pc (odd_p prm)) prm t i1).
  (** Second step: a pour that spends two made-up coins below trapdoors *)
  Definition harvest (dbg oc : bool) (L : nat) (prm : SRParams P0 P1) (t : CurveTree P0 P1) (cv0 cv1 : N) (k0 k1 : Fake (F0 := F0) (F1 := F1) C) (m0 m1 : Minting (F0 := F0) C) :=
    pour_parts (fun s => option_map (fun r => (fst r, (snd (fst (snd r)), snd (snd r)))) (mint_of E0 sg enc_pk enc_sc sha3 dbg (sl_pc (even_p prm)) prm m0 s))
      (fun s => option_map (fun r => (fst r, (snd (fst (snd r)), snd (snd r)))) (mint_of E0 sg enc_pk enc_sc sha3 dbg (sl_pc (even_p prm)) prm m1 s))
      (deep_spend oc L prm t cv0 k0) (deep_spend oc L prm t cv1 k1).

  (** What the second step needs: the trapdoor for a made-up coin is a leaf of the tree, and
      the scalars are such that the prover does not panic. *)
  Definition deep_ok (oc : bool) (L : nat) (prm : SRParams P0 P1) (set : list P0) (t : CurveTree P0 P1) (cover : N) (k : Fake (F0 := F0) (F1 := F1) C) : Prop :=
    exists i leaf evens odds R Q,
      fk_index k = N.of_nat i /\ nth_error set i = Some leaf /\ tree_witness oc L t (N.of_nat i) 0 prm = Some (evens, odds) /\
      fake_commitment enc_pk sha3 (even_p prm) k = Some R /\ trapdoor L prm cover R = Some leaf /\ lone_node L prm R = Some Q /\
      (forall j w, nth_error evens j = Some w -> admissible (odd_p prm) (w_child w) (fk_os k j)) /\
      (forall j w, nth_error odds j = Some w -> admissible (even_p prm) (w_child w) (fk_es k j)) /\
      admissible (odd_p prm) Q (fk_os k (length evens)) /\ admissible (even_p prm) R (fk_es k (length odds)).
End Attack.

Section Lemmas.
  Context {F0 F1 : PField} {P0 : SWCurve F1 F0} {P1 : SWCurve F0 F1} {FC : Field} {C : VSpace FC}.
  Variables (E0 : TrEnv P0) (E1 : TrEnv P1) (enc0 : P0 -> bytes) (enc1 : P1 -> bytes).
  Variables (sg : SigScheme FC C) (enc_pk : C -> bytes) (enc_sc : FC -> bytes) (sha3 : bytes -> bytes).
  Add Field FFdepth : (f_th F0).
  Notation tag := (pk_to_scalar enc_pk sha3).

  (** Paths one below the other *)
  Lemma opens_join L ti k : forall d (G0 G1 : PField) (K0 : SWCurve G1 G0) (K1 : SWCurve G0 G1) (prm0 : SLParams K0) (prm1 : SLParams K1) parent evens odds mid evens' odds' leaf,
    opens L ti d prm0 prm1 parent evens odds mid ->
    match mid with inl c => opens L ti k prm0 prm1 c evens' odds' leaf | inr c => opens L ti k prm1 prm0 c odds' evens' (swap_sum leaf) end ->
    opens L ti (d + k) prm0 prm1 parent (evens ++ evens') (odds ++ odds') leaf.
  Proof.
    induction d as [|d IH]; intros G0 G1 K0 K1 prm0 prm1 parent evens odds mid evens' odds' leaf H Hk.
    - cbn [opens] in H. destruct H as (-> & -> & ->). exact Hk.
    - cbn [opens Nat.add] in *. destruct H as (w & ev & -> & H1 & H2 & H3 & H). exists w, (ev ++ evens'). split; [reflexivity|]. split; [exact H1|]. split; [exact H2|]. split; [exact H3|].
      eapply IH; [exact H|]. destruct mid as [c|c]; cbn [swap_sum]; [|exact Hk]. replace (swap_sum (swap_sum leaf)) with leaf by (destruct leaf; reflexivity). exact Hk.
  Qed.
  Lemma commit_plain {F S : PField} {K : SWCurve F S} (sl : SLParams K) xs n c G : nth_error (G_vec (sl_bp sl)) 0 = Some G -> (length xs + n <= length G)%nat -> xs <> [] ->
    sl_commit sl xs 0 0 = Some c -> plain_commitment sl 0 (xs ++ zeros n) c.
  Proof.
    intros HG HL Hne. rewrite sl_commit_spec, HG. cbn [opt_bind]. unfold guard. destruct (_ || _)%bool; [|discriminate]. intros H. apply Some_inj in H. subst c.
    exists G. split; [exact HG|]. rewrite app_length, zeros_length. split; [lia|]. unfold slice. rewrite !Nat.mul_0_l, Nat.mul_0_r. cbn [skipn]. rewrite vsmul_0_l, vadd_0_l.
    replace (firstn (length xs + n) G) with (firstn (length xs) G ++ firstn n (skipn (length xs) G)).
    2:{ rewrite <- (firstn_skipn (length xs) G) at 3. rewrite firstn_app, firstn_firstn, firstn_length_le by lia. rewrite Nat.min_r by lia. do 2 f_equal. lia. }
    rewrite msm_app by (rewrite firstn_length_le; lia). rewrite msm_zeros, vadd_0_r. rewrite <- (firstn_skipn (length xs) G) at 1. rewrite <- (app_nil_r xs) at 1.
    rewrite msm_app by (rewrite firstn_length_le; lia). cbn. apply vadd_0_r.
  Qed.

  Lemma deep_opens L (prm : SRParams P0 P1) cover R Q leaf : (2 <= L)%nat -> (exists G, nth_error (G_vec (sl_bp (even_p prm))) 0 = Some G /\ (L <= length G)%nat) ->
    trapdoor L prm cover R = Some leaf -> lone_node L prm R = Some Q ->
    opens L 0 2 (even_p prm) (odd_p prm) leaf [mkWit ([fN cover; entry (odd_p prm) Q] ++ zeros (L - 2)) Q] [mkWit (entry (even_p prm) R :: zeros (L - 1)) R] (inl R).
  Proof.
    intros HL (G & HG & HlG) Ht HQ. unfold trapdoor, trapdoor_tag in Ht. rewrite HQ in Ht. cbn [option_map opt_bind] in Ht. cbn [opens].
    eexists _, _. split; [reflexivity|]. cbn [w_siblings w_child]. split; [rewrite app_length, zeros_length; cbn [length]; lia|]. split; [eapply commit_plain; [exact HG|cbn [length]; lia|discriminate|exact Ht]|].
    split; [right; left; reflexivity|]. eexists _, _. split; [reflexivity|]. cbn [w_siblings w_child]. split; [cbn [length]; rewrite zeros_length; lia|].
    split; [|split; [left; reflexivity|split; [reflexivity|split; reflexivity]]].
    unfold lone_node in HQ. pose proof HQ as HQ'. rewrite sl_commit_spec in HQ'. destruct (nth_error (G_vec (sl_bp (odd_p prm))) 0) as [G'|] eqn:HG'; [|discriminate HQ']. cbn [opt_bind length] in HQ'. rewrite zeros_length in HQ'. unfold guard in HQ'.
    destruct (Nat.leb_spec (Datatypes.S (L - 1) * (0 + 1)) (length G')); [|cbn in HQ'; discriminate HQ'].
    replace (entry (even_p prm) R :: zeros (L - 1)) with ((entry (even_p prm) R :: zeros (L - 1)) ++ zeros 0) by apply app_nil_r. eapply commit_plain; [exact HG'|cbn [length]; rewrite zeros_length; lia|discriminate|exact HQ].
  Qed.
  Lemma completed_length (t : CurveTree P0 P1) p p' : verification_commitments t p = Some p' -> (length (pa_even p') + length (pa_odd p') = length (pa_even p) + length (pa_odd p) + 1)%nat.
  Proof.
    unfold verification_commitments, guard. destruct t as [ct|ct]; (destruct (Nat.eqb _ _); [|discriminate]); (destruct (n_commitment ct 0); [|discriminate]); cbn [opt_bind]; intros H; apply Some_inj in H; subst p'; cbn [pa_even pa_odd length]; lia.
  Qed.
  Lemma path_length (t : CurveTree P0 P1) prm evens odds os es pc0 pc1 s0 s1 s0' s1' p r p' L root d leaf : t_commitment t 0 = Some root -> t_opens L 0 d prm root evens odds leaf -> d <> 0%nat ->
    sr_prove E0 E1 enc0 enc1 pc0 pc1 prm evens odds os es s0 s1 = Some (s0', s1', (p, r)) -> verification_commitments t p = Some p' -> (length (pa_even p') + length (pa_odd p') = d /\ length (pa_even p) + length (pa_odd p) + 1 = d)%nat.
  Proof.
    intros Hr Ho Hd Hp Hv. unfold sr_prove in Hp. destruct (root_is_even evens odds) as [top|]; [|discriminate Hp]. cbn [opt_bind] in Hp.
    destruct (prove_levels E0 _ _ s0 _) as [s0''|]; [|discriminate Hp]. cbn [opt_bind] in Hp. destruct (prove_levels E1 _ _ s1 _) as [s1''|]; [|discriminate Hp]. cbn [opt_bind] in Hp.
    apply Some_inj in Hp. unfold make_path in Hp. apply pair_inj in Hp as [_ Hp]. apply pair_inj in Hp as [<- _]. rename Hv into Hv'. cbn [pa_even pa_odd].
    assert (Hsum : (length evens + length odds = d)%nat /\ (1 <= length odds)%nat).
    { destruct root as [c|c]; cbn [t_opens] in Ho; destruct (opens_lengths _ _ _ _ _ _ _ _ _ _ _ _ _ Ho) as [Hl1 Hl2]; destruct (opens_leaf _ _ _ _ _ _ _ _ _ _ _ _ _ Ho) as [Hl _]; pose proof (halves d); lia. }
    pose proof (completed_length t _ _ Hv') as Hcl. cbn [pa_even pa_odd] in Hcl. rewrite removelast_len, !imap_length in Hcl.
    split; [rewrite Hcl|rewrite removelast_len, !imap_length]; lia.
  Qed.

  Lemma spend_along_part L prm (t : CurveTree P0 P1) root d evens odds leaf k :
    sl_good (even_p prm) -> sl_good (odd_p prm) -> sw_a P0 = 0 -> sw_a P1 = 0 ->
    t_commitment t 0 = Some root -> t_opens L 0 d prm root evens odds leaf -> d <> 0%nat -> root_public prm t 0 evens odds -> fake_commitment enc_pk sha3 (even_p prm) k = Some leaf ->
    (forall j w, nth_error evens j = Some w -> admissible (odd_p prm) (w_child w) (fk_os k j)) -> (forall j w, nth_error odds j = Some w -> admissible (even_p prm) (w_child w) (fk_es k j)) ->
    spend_part E0 E1 enc0 enc1 enc_pk sha3 L d prm t (fk_pk k) (spend_along E0 E1 enc0 enc1 enc_pk sha3 prm evens odds k) (fk_value k).
  Proof.
    intros Hg0 Hg1 Ha0 Ha1 Hr Ho Hd Hpub Hcm Aos Aes tr0 tr1 s0 s1 t0 t1 Hs0 Hs1 Hh0 Hh1.
    destruct (sr_total E0 E1 enc0 enc1 L prm root d evens odds leaf _ _ s0 s1 Hg0 Hg1 Ha0 Ha1 Ho Aos Aes Hh0 Hh1) as (s0' & s1' & p & r & Hp & Hh0' & Hh1' & Hk0 & Hk1 & Hd0' & Hd1').
    destruct (sr_lockstep E0 E1 enc0 enc1 false L prm t root d evens odds leaf _ _ tr0 tr1 s0 s1 t0 t1 s0' s1' p r Hg0 Hg1 Hr Ho Hd Hpub ltac:(discriminate) Hs0 Hs1 Hp) as (t0' & t1' & Hv & Hs0' & Hs1' & Hsel).
    unfold spend_along. rewrite Hp. cbn [opt_bind]. unfold fake_commitment in Hcm.
    destruct (commit_pair E0 (even_p prm) s0' _ _ _ _ Hh0' (C22_blinding _ _ _ _ _ _ r _ _ Hcm)) as (s2 & Ec & Hh2 & Hk2 & I0 & I1 & V0 & V1 & Hd2). rewrite Ec. cbn [opt_bind].
    rewrite Hsel. rewrite (proj2 (veqb_true _ _) eq_refl). cbn [guard nth_error opt_bind].
    destruct (constrain_honest (n := 0) s2 (lc_sub (lc_var (VectorCommit (length (p_vec s0')) 1)) (lc_const (tag (fk_pk k))))) as [Hh3 Hk3]; [exact Hh2| | |].
    { apply lc_ok_sub_lc; [apply lc_ok_var, I1|apply lc_ok_const, issued_one]. }
    { rewrite lc_val_sub, lc_val_var, lc_val_const by reflexivity. rewrite V1. ring. }
    destruct (session_agree _ _ _ _ _ _ Hs0') as [_ Hag]. pose proof (ses_commit_vec E0 _ _ tr0 _ _ _ _ _ _ _ Hs0' Ec) as Hs2. cbn [length] in Hs2.
    destruct (v_commit_vec E0 t0' 2 _) as [t2 us'] eqn:Ev in Hs2. destruct (lockstep_commit_vec E0 _ _ _ _ _ _ _ _ _ _ _ Hag Ec Ev) as [<- _]. cbn [fst] in Hs2.
    unfold sr_verify in Hv. destruct (verification_commitments t p) as [p'|] eqn:Evc; [|discriminate Hv]. cbn [opt_bind andb] in Hv.
    assert (Esel : pa_selected p' = pa_selected p).
    { unfold verification_commitments in Evc. destruct t as [ct|ct]; unfold guard in Evc; (destruct (_ =? _)%nat; [|discriminate Evc]); (destruct (n_commitment ct 0); [|discriminate Evc]); cbn [opt_bind] in Evc; apply Some_inj in Evc; subst p'; reflexivity. }
    destruct (even_gadget E0 enc1 L prm t p' t0) as [t0''|] eqn:Eg; [|discriminate Hv]. cbn [opt_bind] in Hv. destruct (odd_gadget E1 enc0 L prm t p' t1) as [t1''|] eqn:Og; [|discriminate Hv]. cbn [opt_bind] in Hv.
    apply Some_inj in Hv. apply pair_inj in Hv as [Hv _]. apply pair_inj in Hv as [-> ->].
    eexists _, s1', p, _, p', _, t1'. split; [reflexivity|]. split; [exact Evc|]. split.
    { unfold spend_dim. rewrite Eg. cbn [opt_bind]. rewrite Esel, Hsel, Ev. cbn [nth_error opt_bind]. reflexivity. }
    split; [exact Og|]. split; [apply constrain_session; exact Hs2|]. split; [exact Hs1'|]. split; [exact Hh3|]. split; [exact Hh1'|].
    split; [exact (keeps_trans _ _ _ (keeps_trans _ _ _ Hk0 Hk2) Hk3)|]. split; [exact Hk1|]. split; [exact I0|]. split; [exact V0|]. split; [exact (eq_trans Hd2 Hd0')|]. split; [exact Hd1'|].
    assert (Hln : (length (pa_even p') + length (pa_odd p') = d /\ length (pa_even p) + length (pa_odd p) + 1 = d)%nat) by (eapply path_length; eassumption). destruct Hln as [Hln Hlp]. split; [exact Hlp|]. intros Hw Hn.
    pose proof (even_size_along E0 enc1 L prm t root d evens odds leaf p p' t0 t0' Hr Ho Hpub Hw Evc Hln Hn Eg) as HL. eapply Nat.le_trans; [exact HL|].
    apply grows_size. eapply grows_trans; [|apply constrain_grows]. pose proof (commit_grows E0 t0' 2 (vadd leaf (vsmul r (pcB_blinding (sl_pc (even_p prm)))))) as Hgr. rewrite Ev in Hgr. exact Hgr.
  Qed.

  Lemma deep_part oc L M prm set fuel height t cover k :
    sl_good (even_p prm) -> sl_good (odd_p prm) -> sw_a P0 = 0 -> sw_a P1 = 0 -> gens_wf (sl_bp (even_p prm)) -> (L <= gens_capacity (sl_bp (even_p prm)))%nat ->
    from_set fuel L M prm set height = TOk t -> (N.of_nat (L ^ t_height t) < 2 ^ 64)%N -> (0 < M)%nat -> t_height t <> 0%nat -> (2 <= L)%nat ->
    deep_ok enc_pk sha3 oc L prm set t cover k ->
    spend_part E0 E1 enc0 enc1 enc_pk sha3 L (t_height t + 2) prm t (fk_pk k) (deep_spend E0 E1 enc0 enc1 enc_pk sha3 oc L prm t cover k) (fk_value k).
  Proof.
    intros Hg0 Hg1 Ha0 Ha1 (Gr & Hr' & HG & _ & HlG & _) Hcap Ht Hc HM Hh HL (i & leaf & evens & odds & R & Q & Hi & Hleaf & Hw & HR & Htr & HQ & Aos & Aes & AQ & AR).
    destruct (leaf_of_index oc L M prm set fuel height t i leaf evens odds Ht Hc HM Hleaf Hw) as (root & Hr & Ho).
    pose proof (tree_witness_root _ _ _ _ _ _ _ _ Hw Hh) as Hpub.
    assert (Ho' : t_opens L 0 (t_height t + 2) prm root (evens ++ [mkWit ([fN cover; entry (odd_p prm) Q] ++ zeros (L - 2)) Q]) (odds ++ [mkWit (entry (even_p prm) R :: zeros (L - 1)) R]) R).
    { assert (HD : opens L 0 2 (even_p prm) (odd_p prm) leaf [mkWit ([fN cover; entry (odd_p prm) Q] ++ zeros (L - 2)) Q] [mkWit (entry (even_p prm) R :: zeros (L - 1)) R] (inl R)) by (apply deep_opens; [exact HL|exists Gr; split; [exact HG|lia]|exact Htr|exact HQ]).
      destruct root as [c|c]; cbn [t_opens] in *; (eapply opens_join; [exact Ho|]); exact HD. }
    assert (Hnth : forall A (l : list A) a j w, nth_error (l ++ [a]) j = Some w -> nth_error l j = Some w \/ (j = length l /\ w = a)).
    { intros A l a j w H. destruct (Nat.lt_ge_cases j (length l)); [rewrite nth_error_app1 in H by lia; auto|]. rewrite nth_error_app2 in H by lia. right. destruct (j - length l)%nat as [|[|x]] eqn:Ex; cbn in H; try discriminate H. split; [lia|congruence]. }
    assert (HP : spend_part E0 E1 enc0 enc1 enc_pk sha3 L (t_height t + 2) prm t (fk_pk k) (spend_along E0 E1 enc0 enc1 enc_pk sha3 prm (evens ++ [mkWit ([fN cover; entry (odd_p prm) Q] ++ zeros (L - 2)) Q]) (odds ++ [mkWit (entry (even_p prm) R :: zeros (L - 1)) R]) k) (fk_value k)).
    { eapply spend_along_part; try eassumption; [lia| | |].
      - unfold root_public in *. destruct t as [ct|ct]; destruct Hpub as (w & Hn & Hx); exists w; (split; [|exact Hx]); rewrite nth_error_app1; (exact Hn || (apply nth_error_Some; rewrite Hn; discriminate)).
      - intros j w H. apply Hnth in H as [H|[-> ->]]; [apply Aos, H|exact AQ].
      - intros j w H. apply Hnth in H as [H|[-> ->]]; [apply Aes, H|exact AR]. }
    intros tr0 tr1 s0 s1 t0 t1 Hs0 Hs1 Hh0 Hh1. destruct (HP tr0 tr1 s0 s1 t0 t1 Hs0 Hs1 Hh0 Hh1) as (s0' & s1' & p & v & p' & t0' & t1' & X1 & X2 & X3 & X4 & X5 & X6 & X7 & X8 & X9 & X10 & X11 & X12 & X13 & X14 & X15 & X16).
    exists s0', s1', p, v, p', t0', t1'. split. { unfold deep_spend. rewrite Hi, Hw. cbn [opt_bind]. rewrite HR. cbn [opt_bind]. rewrite HQ. cbn [opt_bind]. exact X1. }
    do 14 (split; [assumption|]). exact X16.
  Qed.

  Lemma honest_spend_part oc L M prm set fuel height t i :
    sl_good (even_p prm) -> sl_good (odd_p prm) -> sw_a P0 = 0 -> sw_a P1 = 0 ->
    from_set fuel L M prm set height = TOk t -> (N.of_nat (L ^ t_height t) < 2 ^ 64)%N -> (0 < M)%nat -> t_height t <> 0%nat ->
    honest_input sg enc_pk enc_sc sha3 oc L prm set t i ->
    spend_part E0 E1 enc0 enc1 enc_pk sha3 L (t_height t) prm t (sp_pk i) (spend_of E0 E1 enc0 enc1 oc L (sl_pc (even_p prm)) (sl_pc (odd_p prm)) prm t i) (fN (co_value (sp_coin i))).
  Proof.
    intros Hg0 Hg1 Ha0 Ha1 Ht Hc HM Hh Hin tr0 tr1 s0 s1 t0 t1 Hs0 Hs1 Hh0 Hh1. pose proof (honest_tag sg enc_pk enc_sc sha3 _ _ _ _ _ _ Hin) as Htag. destruct Hin as (k & leaf & pk & evens & odds & Ei & Hleaf & Hn & Hr & Hw & Aos & Aes). unfold spend_of. rewrite Ei.
    destruct (spend_total E0 E1 enc0 enc1 sg enc_pk enc_sc sha3 oc L M prm set fuel height t k leaf evens odds (sp_os i) (sp_es i) s0 s1 _ _ _ _ _ Hg0 Hg1 Ha0 Ha1 Ht Hc HM Hh Hleaf Hw Aos Aes Hn Hh0 Hh1) as (s0' & s1' & p & v & R & Q0 & Q1 & K0 & K1 & I & V & D0 & D1).
    destruct (spend_lockstep E0 E1 enc0 enc1 enc_pk sha3 oc L M prm set fuel height t _ _ _ _ _ _ _ _ _ _ _ _ _ _ _ Hg0 Hg1 Ht Hc HM Hh Htag Hs0 Hs1 R) as (p' & t0' & t1' & X1 & X2 & X3 & X4 & X5 & X6).
    exists s0', s1', p, v, p', t0', t1'. split; [exact R|]. do 13 (split; [assumption|]). split; [pose proof (completed_length _ _ _ X1); lia|]. intros Hw2 Hn1.
    destruct (spend_grows _ _ _ _ _ _ _ _ _ _ _ _ _ X2) as (g & G1 & _ & G3). eapply Nat.le_trans; [|apply grows_size; exact G3]. exact (even_size E0 enc1 oc L M prm set fuel height t _ evens odds p p' t0 g Ht Hc HM Hw2 Hw X1 X4 Hn1 G1).
  Qed.
  Lemma honest_mint_part dbg (prm : SRParams P0 P1) m coin c : (mi_value m < 2 ^ 64)%N -> coin_new sg enc_pk enc_sc sha3 (even_p prm) (mi_value m) (mi_pk m) (mi_pkr m) (mi_blinding m) = Some (coin, c) ->
    mint_part E0 dbg (even_p prm) (fun s => option_map (fun r => (fst r, (snd (fst (snd r)), snd (snd r)))) (mint_of E0 sg enc_pk enc_sc sha3 dbg (sl_pc (even_p prm)) prm m s)) c (fN (mi_value m)).
  Proof.
    intros Hv Hn tr s t Hs Hh. unfold mint_of. destruct (mint_total E0 sg enc_pk enc_sc sha3 dbg (even_p prm) _ _ _ _ _ _ s Hh Hn Hv) as (s' & v & R & Q & K & I & V & D). rewrite R. cbn [option_map fst snd].
    destruct (mint_lockstep _ _ _ _ _ _ _ _ _ _ _ _ _ _ _ _ _ _ Hs R) as (t' & Ht & Hs'). exists s', t', v. repeat (split; [assumption || reflexivity|]). exact D.
  Qed.
  Lemma tag_mint_part dbg (sl : SLParams P0) value x c : (value < 2 ^ 64)%N -> sl_commit sl [fN value; x] 0 0 = Some c -> mint_part E0 dbg sl (tag_mint E0 dbg sl value x) c (fN value).
  Proof.
    intros Hv Hc tr s t Hs Hh. unfold tag_mint.
    destruct (commit_pair E0 sl s _ _ _ _ Hh Hc) as (s1 & Ec & Hh1 & Hk1 & I0 & I1 & V0 & V1 & Hd). rewrite Ec. cbn [opt_bind nth_error].
    destruct (range_total E0 dbg (lc_var (VectorCommit (length (p_vec s)) 0)) value 64 s1 Hh1) as (s2 & R & Hh2 & Hk2); [apply lc_ok_var; exact I0|lia|exact Hv|rewrite lc_val_var; exact V0|].
    rewrite R. cbn [opt_bind]. destruct (Hk2 _ I0) as [I2 V2].
    destruct (lk_commit_vec _ _ _ _ (session_locked E0 (sl_pc sl) (sl_bp sl) tr) _ _ _ _ _ _ _ Hs Ec) as [Hu Hs1]. cbn [length] in Hu, Hs1.
    assert (Hsg : same_gadget (range_proof (F := F0) dbg (lc_var (VectorCommit (length (p_vec s)) 0)) (Some value) 64) (range_proof dbg (lc_var (VectorCommit (length (p_vec s)) 0)) None 64)) by (apply simg_same, range_loop_same).
    destruct (lk_gadget _ _ _ _ (session_locked E0 (sl_pc sl) (sl_bp sl) tr) _ _ _ _ _ _ _ Hs1 Hsg R) as (t' & Ht & Hs2).
    eexists s2, t', _. split; [reflexivity|]. split.
    { unfold verify_mint. destruct (v_commit_vec E0 t 2 c) as [t1 us']. cbn [fst snd] in *. subst us'. cbn [nth_error opt_bind]. rewrite Ht. reflexivity. }
    split; [exact Hs2|]. split; [exact Hh2|]. split; [eapply keeps_trans; eassumption|]. split; [exact I2|]. split; [congruence|].
    rewrite <- Hd. eapply simg_def; [|exact R]. apply range_loop_same.
  Qed.
End Lemmas.
