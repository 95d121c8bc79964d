(** * Properties of the batched select-and-rerandomize gadgets: C50 *)
From Verif Require Export SelBatch PropsSelRerand.
From Verif Require Import CSProofs UtilProofs Lockstep CSMore R1CS R1CSSpec R1CSProofs R1CSMain Toy ToyCurve PropsGadgets PropsRerand.
Local Open Scope F_scope.

(** What a successful run of the prover on a tree says about the tree. *)
Lemma multi_witness_paths {F0 F1 : PField} {P0 : SWCurve F1 F0} {P1 : SWCurve F0 F1} (L : nat) (prm : SRParams P0 P1) set fuel height t oc indices evens odds :
  from_set fuel L (length indices) prm set height = TOk t -> (N.of_nat (L ^ t_height t) < 2 ^ 64)%N -> t_height t <> 0%nat -> multi_witness oc L t indices prm = Some (evens, odds) ->
  exists ws leaves n m, length ws = length indices /\ ws <> [] /\ paths_ok L prm t (t_height t) ws leaves /\ Forall2 (fun i leaf => nth_error set (N.to_nat (i mod N.of_nat (L ^ t_height t))) = Some leaf) indices leaves /\
    transpose n (map fst ws) = Some evens /\ transpose m (map snd ws) = Some odds /\
    n = (if t_is_even t then next_length 2 (t_height t) else t_height t / 2)%nat /\ m = (if t_is_even t then t_height t / 2 else next_length 2 (t_height t))%nat /\ t_is_even t = Nat.even (t_height t).
Proof.
  intros Ht Hc Hh Hw. destruct (from_set_ok _ _ _ _ _ _ _ Ht) as (HL & d & Hd & _). pose proof (tree_ok_height _ _ _ _ _ _ Hd) as Eh. rewrite Eh in *.
  unfold multi_witness in Hw. destruct (all_some (imap (fun ti i => tree_witness oc L t i ti prm) 0 indices)) as [ws|] eqn:Ews; [|discriminate Hw]. cbn [opt_bind] in Hw.
  destruct (nth_error ws 0) as [w0|] eqn:E0; [|discriminate Hw]. cbn [opt_bind] in Hw.
  destruct (transpose (length (fst w0)) (map fst ws)) as [ev|] eqn:Et1; [|discriminate Hw]. cbn [opt_bind] in Hw.
  destruct (transpose (length (snd w0)) (map snd ws)) as [od|] eqn:Et2; [|discriminate Hw]. cbn [opt_bind] in Hw. unfold guard in Hw. destruct (_ =? _)%nat; [|discriminate Hw]. apply Some_inj, pair_inj in Hw as [-> ->].
  assert (Hall : length ws = length indices /\ forall j p, nth_error ws j = Some p -> exists i, nth_error indices j = Some i /\ tree_witness oc L t i j prm = Some p).
  { apply all_some_spec in Ews. split; [apply Forall2_len in Ews; rewrite imap_length in Ews; symmetry; exact Ews|]. intros j p Hp.
    destruct (nth_error indices j) as [i|] eqn:Ei.
    - exists i. split; [reflexivity|]. destruct (Forall2_nth _ _ _ j (tree_witness oc L t i j prm) Ews) as (b & Hb & Hx); [rewrite imap_nth, Ei; reflexivity|]. congruence.
    - apply nth_error_None in Ei. apply Forall2_len in Ews. rewrite imap_length in Ews. assert (j < length ws)%nat by (apply nth_error_Some; congruence). lia. }
  destruct Hall as [Hlen Hall].
  assert (Hspec : forall j e o, nth_error ws j = Some (e, o) -> exists i leaf root, nth_error indices j = Some i /\ nth_error set (N.to_nat (i mod N.of_nat (L ^ d))) = Some leaf /\ t_commitment t j = Some root /\ t_opens L j d prm root e o leaf /\ root_public prm t j e o).
  { intros j e o Hj. destruct (Hall j _ Hj) as (i & Hi & Hwit). assert (Hjl : (j < length indices)%nat) by (apply nth_error_Some; congruence).
    assert (Hcap : (N.of_nat (L ^ t_height t) < 2 ^ 64)%N) by (rewrite Eh; exact Hc).
    destruct (tree_prove_opens L (length indices) prm set fuel height t oc i j e o Ht Hcap Hjl Hwit) as (leaf & root & H1 & H2 & H3). rewrite Eh in H1, H3.
    exists i, leaf, root. split; [exact Hi|]. split; [exact H1|]. split; [exact H2|]. split; [exact H3|]. eapply tree_witness_root; [exact Hwit|rewrite Eh; exact Hh]. }
  assert (Hleaves : exists leaves, Forall2 (fun i leaf => nth_error set (N.to_nat (i mod N.of_nat (L ^ d))) = Some leaf) indices leaves).
  { destruct (all_some_total (fun i => nth_error set (N.to_nat (i mod N.of_nat (L ^ d)))) indices) as (leaves & Hl).
    - intros i Hi. destruct (In_nth_error _ _ Hi) as (j & Hj). assert (Hjl : (j < length ws)%nat) by (rewrite Hlen; apply nth_error_Some; congruence). destruct (nth_error ws j) as [[e o]|] eqn:Ew; [|apply nth_error_None in Ew; lia].
      destruct (Hspec j e o Ew) as (i' & leaf & _ & Hi' & Hx & _). exists leaf. congruence.
    - exists leaves. destruct (all_some_map_nth _ _ _ Hl) as [Hll Hn]. apply Forall2_index; [congruence|]. intros k a b Ha Hb. destruct (Hn k a Ha) as (b' & Hb' & Hf). congruence. }
  destruct Hleaves as (leaves & Hleaves). exists ws, leaves, (length (fst w0)), (length (snd w0)). split; [exact Hlen|]. split; [destruct ws; [discriminate E0|discriminate]|]. split; [|split; [exact Hleaves|]].
  - split; [apply Forall2_len in Hleaves; congruence|]. intros j e o leaf Hj Hleaf. destruct (Hspec j e o Hj) as (i & leaf' & root & H1 & H2 & H3 & H4 & H5). destruct (Forall2_nth _ _ _ j i Hleaves H1) as (b & Hb & Hx). 
    exists root. split; [exact H3|]. split; [congruence|exact H5].
  - split; [exact Et1|]. split; [exact Et2|]. destruct w0 as [e o]. destruct (Hspec 0%nat e o E0) as (i & leaf & root & H1 & H2 & H3 & H4 & _). cbn [fst snd].
    destruct t as [ct|ct]; cbn [t_commitment t_is_even] in *; (destruct (n_commitment ct 0) as [c|]; [|discriminate H3]); apply Some_inj in H3; subst root; cbn [t_opens] in H4.
    + destruct (opens_lengths _ _ _ _ _ _ _ _ _ _ _ _ _ H4) as [-> ->]. split; [reflexivity|]. split; [reflexivity|]. symmetry. exact (proj1 Hd).
    + destruct (opens_lengths _ _ _ _ _ _ _ _ _ _ _ _ _ H4) as [-> ->]. split; [reflexivity|]. split; [reflexivity|]. symmetry. exact (proj1 Hd).
Qed.

(** ** C50: batched prover and verifier build identical circuits *)
(** For trees of height at least 1 with M parallel commitments, any M indices and any scalars
    with which the prover does not panic.  A tree that is a single leaf: see below. *)
Theorem C50_same_circuits_partial : forall (F0 F1 : PField) (P0 : SWCurve F1 F0) (P1 : SWCurve F0 F1) (E0 : TrEnv P0) (E1 : TrEnv P1) (enc0 : P0 -> bytes)
    bp0 pc0 delta0 bp1 pc1 delta1 (prm : SRParams P0 P1) (L : nat) (set : list P0) fuel height t oc dbg indices os es ls tr0 tr1 s0 s1 (t0 : VState P0) (t1 : VState P1) s0' s1' p rs,
  sl_new bp0 pc0 delta0 = Some (even_p prm) -> sl_new bp1 pc1 delta1 = Some (odd_p prm) ->
  from_set fuel L (length indices) prm set height = TOk t -> (N.of_nat (L ^ t_height t) < 2 ^ 64)%N -> t_height t <> 0%nat ->
  session E0 pc0 bp0 tr0 s0 t0 -> session E1 pc1 bp1 tr1 s1 t1 ->
  mtree_prove E0 E1 enc0 oc L t indices pc0 pc1 prm os es ls s0 s1 = Some (s0', s1', (p, rs)) ->
  exists (t0' : VState P0) (t1' : VState P1) leaves, msr_verify E0 E1 enc0 dbg L (length indices) prm t p t0 t1 = Some (t0', t1', mp_selected p) /\
    same_circuit pc0 bp0 s0' t0' /\ same_circuit pc1 bp1 s1' t1' /\
    Forall2 (fun i leaf => nth_error set (N.to_nat (i mod N.of_nat (L ^ t_height t))) = Some leaf) indices leaves /\
    length rs = length indices /\ mp_selected p = zipw (fun leaf r => vadd leaf (vsmul r (pcB_blinding pc0))) leaves rs.
Proof.
  intros F0 F1 P0 P1 E0 E1 enc0 bp0 pc0 delta0 bp1 pc1 delta1 prm L set fuel height t oc dbg indices os es ls tr0 tr1 s0 s1 t0 t1 s0' s1' p rs Hsl0 Hsl1 Ht Hc Hh Hses0 Hses1 Hp.
  destruct (sl_new_good _ _ _ _ Hsl0) as (Hg0 & Eb0 & Ep0 & _), (sl_new_good _ _ _ _ Hsl1) as (Hg1 & Eb1 & Ep1 & _).
  unfold mtree_prove in Hp. destruct (multi_witness oc L t indices prm) as [[evens odds]|] eqn:Hw; [|discriminate Hp]. cbn [opt_bind fst snd] in Hp.
  destruct (multi_witness_paths L prm set fuel height t oc indices evens odds Ht Hc Hh Hw) as (ws & leaves & n & m & Hl & Hne & Hok & Hlv & T1 & T2 & Hn & Hm & Hpar).
  rewrite <- Eb0, <- Ep0 in *. rewrite <- Eb1, <- Ep1 in *. rewrite <- Hl in *.
  destruct (msr_lockstep E0 E1 enc0 dbg L prm t (t_height t) ws leaves n m evens odds os es ls tr0 tr1 s0 s1 t0 t1 s0' s1' p rs
    (proj1 (from_set_ok _ _ _ _ _ _ _ Ht)) Hg0 Hg1 Hne Hok Hh T1 T2 Hn Hm Hpar ltac:(reflexivity) Hses0 Hses1 Hp) as (t0' & t1' & Hv & S0 & S1 & Hsel & Hrs).
  exists t0', t1', leaves. split; [exact Hv|]. split; [exact (session_same _ _ _ _ _ _ S0)|]. split; [exact (session_same _ _ _ _ _ _ S1)|]. split; [exact Hlv|]. split; [rewrite Hrs, map_length, seq_length; reflexivity|].
  rewrite Hsel, Hrs. pose proof (proj1 Hok) as Hll. rewrite <- Hll. clear. generalize 0%nat. induction leaves as [|l leaves IH]; intros i; cbn [imap length seq map zipw]; [reflexivity|]. rewrite IH. reflexivity.
Qed.
Print Assumptions C50_same_circuits_partial.
(** A tree that is a single leaf: the prover returns M times the identity, the verifier panics. *)
Theorem C50_single_leaf_refuted : forall (F0 F1 : PField) (P0 : SWCurve F1 F0) (P1 : SWCurve F0 F1) (E0 : TrEnv P0) (E1 : TrEnv P1) (enc0 : P0 -> bytes)
    pc0 pc1 (prm : SRParams P0 P1) (L : nat) (c : P0) oc dbg indices os es ls s0 s1 (t0 : VState P0) (t1 : VState P1), indices <> [] ->
  exists p, mtree_prove E0 E1 enc0 oc L (TEven (Leaf c)) indices pc0 pc1 prm os es ls s0 s1 = Some (s0, s1, (p, repeat 0 (length indices))) /\ mp_selected p = repeat v0 (length indices) /\
    msr_verify E0 E1 enc0 dbg L (length indices) prm (TEven (Leaf c)) p t0 t1 = None.
Proof.
  intros F0 F1 P0 P1 E0 E1 enc0 pc0 pc1 prm L c oc dbg indices os es ls s0 s1 t0 t1 Hi. exists (mkMPath (repeat v0 (length indices)) [] []). split; [|split; reflexivity].
  unfold mtree_prove. assert (H : multi_witness oc L (TEven (Leaf c : Node P0 P1)) indices prm = Some ([], [])); [|rewrite H; reflexivity].
  unfold multi_witness. assert (H : forall k, all_some (imap (fun ti i => tree_witness oc L (TEven (Leaf c : Node P0 P1)) i ti prm) k indices) = Some (map (fun _ => ([], [])) indices)).
  { clear Hi. induction indices as [|i l IH]; intros k; cbn [imap all_some map]; [reflexivity|]. rewrite IH. reflexivity. }
  rewrite H. destruct indices as [|i l]; [congruence|]. reflexivity.
Qed.
Print Assumptions C50_single_leaf_refuted.

(** ** C61: batched membership proofs are complete *)
(** [badmissible]: the sum of the selected children (each shifted by Delta) can be formed
    with incomplete addition and re-randomized with the scalar. *)
Theorem C61_batched_complete_partial : forall (F0 F1 : PField) (P0 : SWCurve F1 F0) (P1 : SWCurve F0 F1) (E0 : TrEnv P0) (E1 : TrEnv P1) (enc0 : P0 -> bytes)
    bp0 pc0 delta0 bp1 pc1 delta1 (prm : SRParams P0 P1) (L : nat) (set : list P0) fuel height t oc dbg indices evens odds os es ls tr0 tr1 s0 s1 (t0 : VState P0) (t1 : VState P1),
  sl_new bp0 pc0 delta0 = Some (even_p prm) -> sl_new bp1 pc1 delta1 = Some (odd_p prm) -> sw_a P0 = 0 -> sw_a P1 = 0 ->
  from_set fuel L (length indices) prm set height = TOk t -> (N.of_nat (L ^ t_height t) < 2 ^ 64)%N -> t_height t <> 0%nat ->
  multi_witness oc L t indices prm = Some (evens, odds) ->
  (forall i nd, nth_error evens i = Some nd -> badmissible (odd_p prm) (map w_child nd) (os i)) ->
  (forall i nd, nth_error (removelast odds) i = Some nd -> badmissible (even_p prm) (map w_child nd) (es i)) ->
  (forall j w, nth_error (last odds []) j = Some w -> admissible (even_p prm) (w_child w) (ls j)) ->
  session E0 pc0 bp0 tr0 s0 t0 -> session E1 pc1 bp1 tr1 s1 t1 -> honest s0 -> honest s1 -> p_def s0 = [] -> p_def s1 = [] ->
  exists s0' s1' (t0' : VState P0) (t1' : VState P1) p rs leaves,
    mtree_prove E0 E1 enc0 oc L t indices pc0 pc1 prm os es ls s0 s1 = Some (s0', s1', (p, rs)) /\
    msr_verify E0 E1 enc0 dbg L (length indices) prm t p t0 t1 = Some (t0', t1', zipw (fun leaf r => vadd leaf (vsmul r (pcB_blinding pc0))) leaves rs) /\
    Forall2 (fun i leaf => nth_error set (N.to_nat (i mod N.of_nat (L ^ t_height t))) = Some leaf) indices leaves /\ length rs = length indices /\
    satisfies (p_asg s0') (v_cs t0') /\ satisfies (p_asg s1') (v_cs t1') /\
    (forall dbg0 rnd pf trf dbg1 rr, gens_wf bp0 -> (gens_capacity bp0 < 2 ^ 32)%nat -> r1cs_prove E0 dbg0 rnd pc0 bp0 s0' = Some (Ok (pf, trf)) ->
       Forall (fun P => P <> v0) (validated_points (op_degree_of (length (p_vec s0'))) pf) -> r1cs_verify E0 dbg1 rr pf pc0 bp0 t0' = Some (Ok tt)) /\
    (forall dbg0 rnd pf trf dbg1 rr, gens_wf bp1 -> (gens_capacity bp1 < 2 ^ 32)%nat -> r1cs_prove E1 dbg0 rnd pc1 bp1 s1' = Some (Ok (pf, trf)) ->
       Forall (fun P => P <> v0) (validated_points (op_degree_of (length (p_vec s1'))) pf) -> r1cs_verify E1 dbg1 rr pf pc1 bp1 t1' = Some (Ok tt)).
Proof.
  intros F0 F1 P0 P1 E0 E1 enc0 bp0 pc0 delta0 bp1 pc1 delta1 prm L set fuel height t oc dbg indices evens odds os es ls tr0 tr1 s0 s1 t0 t1 Hsl0 Hsl1 Ha0 Ha1 Ht Hc Hh Hw Aos Aes Als Hses0 Hses1 Hh0 Hh1 Hd0 Hd1.
  destruct (sl_new_good _ _ _ _ Hsl0) as (Hg0 & Eb0 & Ep0 & _), (sl_new_good _ _ _ _ Hsl1) as (Hg1 & Eb1 & Ep1 & _).
  destruct (multi_witness_paths L prm set fuel height t oc indices evens odds Ht Hc Hh Hw) as (ws & leaves & n & m & Hl & Hne & Hok & Hlv & T1 & T2 & Hn & Hm & Hpar).
  rewrite <- Eb0, <- Ep0 in *. rewrite <- Eb1, <- Ep1 in *. pose proof (proj1 (from_set_ok _ _ _ _ _ _ _ Ht)) as HL.
  destruct (msr_total E0 E1 enc0 L prm t (t_height t) ws leaves n m evens odds os es ls s0 s1 HL Hg0 Hg1 Ha0 Ha1 Hne Hok Hh T1 T2 Hn Hm Hpar Aos Aes Als Hh0 Hh1) as (s0' & s1' & p & rs & Hp & Hh0' & Hh1' & _ & _ & Hd0' & Hd1').
  destruct (msr_lockstep E0 E1 enc0 dbg L prm t (t_height t) ws leaves n m evens odds os es ls tr0 tr1 s0 s1 t0 t1 s0' s1' p rs
    HL Hg0 Hg1 Hne Hok Hh T1 T2 Hn Hm Hpar ltac:(reflexivity) Hses0 Hses1 Hp) as (t0' & t1' & Hv & S0 & S1 & Hsel & Hrs).
  assert (Hz : mp_selected p = zipw (fun leaf r => vadd leaf (vsmul r (pcB_blinding (sl_pc (even_p prm))))) leaves rs).
  { rewrite Hsel, Hrs. pose proof (proj1 Hok) as Hll. rewrite <- Hll. clear. generalize 0%nat. induction leaves as [|l leaves IH]; intros i; cbn [imap length seq map zipw]; [reflexivity|]. rewrite IH. reflexivity. }
  exists s0', s1', t0', t1', p, rs, leaves. unfold mtree_prove. rewrite Hw. cbn [opt_bind fst snd]. rewrite <- Hl. split; [exact Hp|]. rewrite <- Hz. split; [exact Hv|]. split; [exact Hlv|]. split; [rewrite Hrs, map_length, seq_length; reflexivity|].
  destruct (session_same _ _ _ _ _ _ S0) as [C0 _], (session_same _ _ _ _ _ _ S1) as [C1 _]. rewrite <- C0, <- C1.
  split; [apply honest_satisfies, Hh0'|]. split; [apply honest_satisfies, Hh1'|]. split.
  - intros dbg0 rnd pf trf dbg1 rr Hwf Hcap Hprove Hnz. eapply C08_complete; try eassumption; [congruence|apply honest_satisfies, Hh0'].
  - intros dbg0 rnd pf trf dbg1 rr Hwf Hcap Hprove Hnz. eapply C08_complete; try eassumption; [congruence|apply honest_satisfies, Hh1'].
Qed.
Print Assumptions C61_batched_complete_partial.

(** ** The hypotheses are satisfiable: two paths in a tree with five leaves over the toy cycle *)
Definition toy_ls (i : nat) : PF163 := fp_mk (p:=PM163) (91 + 5 * Z.of_nat i).
(* test data or vocabulary of statements, no code modelled *)
Fixpoint apart_b {F : Field} {S : PField} {C : SWCurve F S} (first : bool) (A : C) (Ps : list C) : bool :=
  match Ps with [] => true | P :: Ps' => (first || (negb (veqb P A) && negb (veqb P (vopp A)))) && apart_b false (vadd A P) Ps' end.
Lemma apart_b_spec {F : Field} {S : PField} {C : SWCurve F S} : forall (Ps : list C) first A, apart_b first A Ps = true -> sums_apart first A Ps.
Proof.
  induction Ps as [|P Ps IH]; intros first A H; [exact I|]. cbn [apart_b sums_apart] in *. apply andb_prop in H as [H1 H2]. split; [|apply IH, H2]. intros ->. cbn [orb] in H1. apply andb_prop in H1 as [H1 H3].
  apply Bool.negb_true_iff in H1, H3. split; intros ->; [rewrite veqb_refl in H1; discriminate|rewrite veqb_refl in H3; discriminate].
Qed.
(* test data or vocabulary of statements, no code modelled *)
Definition badm_b {F0 F1 : PField} {P1 : SWCurve F0 F1} (prm : SLParams P1) (children : list P1) (r : F1) : bool :=
  let Ps := map (fun c => vadd c (sl_delta prm)) children in let h := pcB_blinding (sl_pc prm) in
  (negb (exceptional_b (pf_mod F1) (pf_repr r)) && forallb (fun P => negb (veqb P v0)) Ps && apart_b true v0 Ps && negb (veqb (vsmul r h) (psum Ps)) && negb (veqb (vsmul r h) (vopp (psum Ps))))%bool.
Lemma badm_b_spec {F0 F1 : PField} {P1 : SWCurve F0 F1} (prm : SLParams P1) children r : badm_b prm children r = true -> badmissible prm children r.
Proof.
  unfold badm_b, badmissible. intros H. apply andb_prop in H as [H H5]. apply andb_prop in H as [H H4]. apply andb_prop in H as [H H3]. apply andb_prop in H as [H1 H2]. apply Bool.negb_true_iff in H1, H4, H5.
  split; [apply exceptional_b_spec, H1|]. split; [|split; [apply apart_b_spec, H3|]].
  - rewrite forallb_forall in H2. apply Forall_forall. intros P HP E. specialize (H2 P HP). rewrite E, veqb_refl in H2. discriminate H2.
  - split; intros E; [rewrite E, veqb_refl in H4|rewrite E, veqb_refl in H5]; discriminate.
Qed.
(* test data or vocabulary of statements, no code modelled *)
Definition badm_all {F0 F1 S : PField} {P1 : SWCurve F0 F1} (prm : SLParams P1) (r : nat -> F1) (nds : list (list (Wit S P1))) : bool := forallb (fun b => b) (imap (fun i nd => badm_b prm (map w_child nd) (r i)) 0 nds).
Lemma badm_all_spec {F0 F1 S : PField} {P1 : SWCurve F0 F1} (prm : SLParams P1) (r : nat -> F1) (nds : list (list (Wit S P1))) : badm_all prm r nds = true -> forall i nd, nth_error nds i = Some nd -> badmissible prm (map w_child nd) (r i).
Proof. unfold badm_all. intros H i nd Hn. rewrite forallb_forall in H. apply badm_b_spec, H. apply nth_error_In with (n := i). rewrite imap_nth, Hn. reflexivity. Qed.
(* test data or vocabulary of statements, no code modelled *)
Definition huge0 : BPGens TC0 := toy_gens PM163 256 1.
(* test data or vocabulary of statements, no code modelled *)
Definition huge1 : BPGens TC1 := toy_gens PM139 256 1.
(** A computation about the toy tree and the witness for the indices. *)
Definition with_mtree (indices : list N) (f : SRParams TC0 TC1 -> CurveTree TC0 TC1 -> list (list (Wit PF163 TC1)) -> list (list (Wit PF139 TC0)) -> bool) : bool :=
  match sl_new huge0 toy_pcg toy_delta, sl_new huge1 toy_pcg1 toy_delta1 with
  | Some a, Some b => let prm := mkSRP a b in
     match from_set 6 2 (length indices) prm toy_set None with
     | TOk t => match multi_witness true 2 t indices prm with Some (e, o) => f prm t e o | None => false end
     | _ => false end
  | _, _ => false end.
Lemma with_mtree_spec indices f : with_mtree indices f = true -> exists prm t e o, sl_new huge0 toy_pcg toy_delta = Some (even_p prm) /\ sl_new huge1 toy_pcg1 toy_delta1 = Some (odd_p prm) /\
  from_set 6 2 (length indices) prm toy_set None = TOk t /\ multi_witness true 2 t indices prm = Some (e, o) /\ f prm t e o = true.
Proof.
  unfold with_mtree. intros H. destruct (sl_new huge0 toy_pcg toy_delta) as [a|]; [|discriminate H]. destruct (sl_new huge1 toy_pcg1 toy_delta1) as [b|]; [|discriminate H]. cbv zeta in H.
  destruct (from_set 6 2 (length indices) (mkSRP a b) toy_set None) as [t| |] eqn:Et; try discriminate H. destruct (multi_witness true 2 t indices (mkSRP a b)) as [[e o]|] eqn:Ew; [|discriminate H].
  exists (mkSRP a b), t, e, o. repeat split; assumption.
Qed.
(** Both R1CS proofs are made and have the expected result. *)
Definition toy_mproofs (dbg : bool) (want : bool) (M : nat) (prm : SRParams TC0 TC1) (t : CurveTree TC0 TC1) (e : list (list (Wit PF163 TC1))) (o : list (list (Wit PF139 TC0))) : bool :=
  match msr_prove EE0 EE1 ec0 M toy_pcg toy_pcg1 prm e o toy_os toy_es toy_ls (p_new []) (p_new []) with
  | Some (s0, s1, (p, r)) =>
    match r1cs_prove EE0 true (toy_rnd PM163) toy_pcg huge0 s0, r1cs_prove EE1 true (toy_rnd PM139) toy_pcg1 huge1 s1, msr_verify EE0 EE1 ec0 dbg 2 M prm t p (v_new []) (v_new []) with
    | Some (Ok (pf0, _)), Some (Ok (pf1, _)), Some (t0, t1, _) =>
      nz_points (length (p_vec s0)) pf0 && nz_points (length (p_vec s1)) pf1 &&
      Bool.eqb (accepted (r1cs_verify EE0 true (fp_mk (p:=PM163) 5) pf0 toy_pcg huge0 t0) && accepted (r1cs_verify EE1 true (fp_mk (p:=PM139) 5) pf1 toy_pcg1 huge1 t1)) want
    | _, _, _ => false end
  | None => false end.
(** Height 3, root on the odd curve; the leaves 3 and 2 are selected by the two paths. *)
Example C61_demo : exists prm t evens odds, sl_new huge0 toy_pcg toy_delta = Some (even_p prm) /\ sl_new huge1 toy_pcg1 toy_delta1 = Some (odd_p prm) /\ sw_a TC0 = 0 /\ sw_a TC1 = 0 /\
  from_set 6 2 2 prm toy_set None = TOk t /\ t_height t = 3%nat /\ multi_witness true 2 t [3; 2]%N prm = Some (evens, odds) /\
  (forall i nd, nth_error evens i = Some nd -> badmissible (odd_p prm) (map w_child nd) (toy_os i)) /\
  (forall i nd, nth_error (removelast odds) i = Some nd -> badmissible (even_p prm) (map w_child nd) (toy_es i)) /\
  (forall j w, nth_error (last odds []) j = Some w -> admissible (even_p prm) (w_child w) (toy_ls j)) /\
  exists s0' s1' (t0' : VState TC0) (t1' : VState TC1) p rs leaves,
    mtree_prove EE0 EE1 ec0 true 2 t [3; 2]%N toy_pcg toy_pcg1 prm toy_os toy_es toy_ls (p_new []) (p_new []) = Some (s0', s1', (p, rs)) /\
    msr_verify EE0 EE1 ec0 true 2 2 prm t p (v_new []) (v_new []) = Some (t0', t1', zipw (fun leaf r => vadd leaf (vsmul r (pcB_blinding toy_pcg))) leaves rs) /\
    Forall2 (fun i leaf => nth_error toy_set (N.to_nat (i mod N.of_nat (2 ^ t_height t))) = Some leaf) [3; 2]%N leaves /\
    satisfies (p_asg s0') (v_cs t0') /\ satisfies (p_asg s1') (v_cs t1').
Proof.
  destruct (with_mtree_spec [3; 2]%N (fun prm t e o => (t_height t =? 3)%nat && badm_all (odd_p prm) toy_os e && badm_all (even_p prm) toy_es (removelast o) && adm_all (even_p prm) toy_ls (last o []))%bool ltac:(vm_compute; reflexivity)) as (prm & t & e & o & H0 & H1 & Ht & Hw & H).
  apply andb_prop in H as [H Al]. apply andb_prop in H as [H Ao]. apply andb_prop in H as [Eh Ae]. apply Nat.eqb_eq in Eh. pose proof (badm_all_spec _ _ _ Ae) as Be. pose proof (badm_all_spec _ _ _ Ao) as Bo. pose proof (adm_all_spec _ _ _ Al) as Bl.
  exists prm, t, e, o. split; [exact H0|]. split; [exact H1|]. split; [reflexivity|]. split; [reflexivity|]. split; [exact Ht|]. split; [exact Eh|]. split; [exact Hw|]. split; [exact Be|]. split; [exact Bo|]. split; [exact Bl|].
  destruct (C61_batched_complete_partial _ _ TC0 TC1 EE0 EE1 ec0 huge0 toy_pcg toy_delta huge1 toy_pcg1 toy_delta1 prm 2 toy_set 6 None t true true [3; 2]%N e o toy_os toy_es toy_ls [] [] (p_new []) (p_new []) (v_new []) (v_new [])
    H0 H1 eq_refl eq_refl Ht ltac:(rewrite Eh; vm_compute; reflexivity) ltac:(rewrite Eh; discriminate) Hw Be Bo Bl (ses_new _ _ _ _) (ses_new _ _ _ _) (honest_new _) (honest_new _) eq_refl eq_refl)
    as (s0' & s1' & t0' & t1' & p & rs & leaves & C1 & C2 & C3 & C4 & C5 & C6 & _).
  exists s0', s1', t0', t1', p, rs, leaves. split; [exact C1|]. split; [exact C2|]. split; [exact C3|]. split; [exact C5|exact C6].
Qed.
(** The two proofs are made, their points are not the identity, and they verify. *)
Example C61_demo_run : with_mtree [3; 2]%N (toy_mproofs true true 2) = true.
Proof. vm_compute. reflexivity. Qed.
