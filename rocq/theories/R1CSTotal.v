(** * When the prover produces a proof, and when prover and verifier stop *)
From Verif Require Import R1CSSpec UtilProofs CSProofs Lockstep FlatProofs CSMore R1CSPoly R1CSAlg R1CSProofs R1CSCore R1CSMain R1CSVerif R1CSMore IPPSpec IPPProofs.
Local Open Scope F_scope.

Section Total.
  Context {F : Field} {V : VSpace F}.
  Add Field FFtotal : (f_th F).
  Variable E : TrEnv V.
  Variable pc : PedersenGens V.
  Variable g : BPGens V.
  Implicit Types (s : PState F) (t : VState V).

  Lemma append_Ts_total (op : nat) (T : list V) : forall ds tr,
    (forall d, In d ds -> (d < 41)%nat) -> (forall d, In d ds -> (d < length T)%nat) ->
    exists tr', append_Ts E op ds T tr = Some tr'.
  Proof.
    induction ds as [|d ds IH]; intros tr H41 HT; cbn [append_Ts]; [eauto|].
    destruct (Nat.eqb_spec d op) as [|Hne].
    - apply IH; intros; [apply H41|apply HT]; right; assumption.
    - destruct (nth_error T_LABELS d) as [lb|] eqn:El.
      2:{ exfalso. apply nth_error_None in El. cbn in El. specialize (H41 d (or_introl eq_refl)). lia. }
      cbn [opt_bind]. destruct (nth_error T d) as [P|] eqn:ET.
      2:{ exfalso. apply nth_error_None in ET. specialize (HT d (or_introl eq_refl)). lia. }
      cbn [opt_bind]. apply IH; intros; [apply H41|apply HT]; right; assumption.
  Qed.

  Lemma prove_total dbg rnd s :
    gens_wf g -> gates_inv s -> (length (p_vec s) <= 17)%nat -> good_challenges E -> (p_size s <= gens_capacity g)%nat ->
    (forall tr, exists s2, p_create_randomized E (p_set_tr (padded s) tr) = Some (Ok s2) /\ (p_vec s = [] \/ p_size s2 = p_size s) /\
       (next_power_of_two (p_size s2) <= gens_capacity g)%nat /\ Forall (Forall (fun x => p_var s2 (fst x) <> None)) (p_cs s2)) ->
    exists pf trf, r1cs_prove E dbg rnd pc g s = Some (Ok (pf, trf)).
  Proof.
    intros (Gr & Hr & HG & HH & LG & LH) Hi H17 Hch Hc1 Hph.
    unfold r1cs_prove. rewrite p_pad_eq. set (s0 := padded s).
    set (tr0 := append_u64 (p_tr s0) "m" (N.of_nat (length (p_v s0)))).
    change (p_size (p_set_tr s0 tr0)) with (p_size s0).
    change (p_aL (p_set_tr s0 tr0)) with (p_aL s0). change (p_aR (p_set_tr s0 tr0)) with (p_aR s0).
    change (p_aO (p_set_tr s0 tr0)) with (p_aO s0). change (p_tr (p_set_tr s0 tr0)) with tr0.
    change (p_vec s0) with (p_vec s).
    assert (Hs0 : p_size s0 = p_size s) by apply padded_size. rewrite Hs0.
    destruct (Nat.ltb_spec (gens_capacity g) (p_size s)) as [|_]; [lia|].
    unfold share_G, share_H. rewrite HG, HH. cbn [option_map opt_bind].
    set (ai1 := commit_I pc (r_i1 rnd) _ _ _ _). set (ao1 := commit_O _ _ _ _). set (sp1 := commit_I pc (r_s1 rnd) _ _ _ _).
    set (tr1 := append_point E (append_point E (append_point E tr0 "A_I1" ai1) "A_O1" ao1) "S1" sp1).
    change (p_set_tr (p_set_tr s0 tr0) tr1) with (p_set_tr s0 tr1).
    destruct (Hph tr1) as (s2 & Hs2 & Hn2 & Hc2 & Hvars). fold s0 in Hs2. rewrite Hs2. cbn [res_bind].
    assert (Hi1 : gates_inv (p_set_tr s0 tr1)) by exact (padded_inv _ Hi).
    destruct (p_create_randomized_inv _ _ _ Hi1 Hs2) as [Hi2 _].
    destruct (size_is_length _ _ _ Hi1 (eq_trans (padded_length s) (eq_sym Hs0)) Hs2) as [Hn Hle].
    change (p_size (p_set_tr s0 tr1)) with (p_size s0) in Hle. rewrite Hs0 in Hle.
    destruct (create_randomized_frame _ _ _ Hs2) as (Hv & Hvb & Hvec). change (p_vec (p_set_tr s0 tr1)) with (p_vec s) in Hvec.
    set (n := p_size s2) in *. set (N := next_power_of_two n) in *.
    destruct (Nat.ltb_spec (gens_capacity g) N) as [|_]; [lia|].
    assert (Hg : negb (0 <? n - p_size s)%nat || match p_vec s2 with [] => true | _ => false end = true).
    { rewrite Hvec. destruct Hn2 as [->|Hn2]; [apply orb_true_r|]. rewrite Hn2, Nat.sub_diag. reflexivity. }
    rewrite Hg. cbn [guard].
    match goal with |- context [append_point E (p_tr s2) "A_I2" ?a] => set (ai2 := a) end.
    match goal with |- context [append_point E _ "A_O2" ?a] => set (ao2 := a) end.
    match goal with |- context [append_point E _ "S2" ?a] => set (sp2 := a) end.
    set (tr3 := append_point E (append_point E (append_point E (p_tr s2) "A_I2" ai2) "A_O2" ao2) "S2" sp2).
    destruct (Hch tr3 "y"%string) as (y & try_ & -> & Hy0). cbn [opt_bind].
    destruct (Hch try_ "z"%string) as (z & trz & -> & _). cbn [opt_bind].
    destruct (p_flatten_total s2 z Hi2 Hvars) as (fl & Hfl). rewrite Hfl. cbn [opt_bind].
    rewrite (proj2 (finv_opt_Some y (finv y)) (conj Hy0 eq_refl)). cbn [opt_bind].
    destruct (p_flatten_shape _ _ _ Hfl) as (WL & WR & WO & WV & WVC). rewrite <- Hn in WL, WR, WO.
    match goal with |- context [build_polys ?op ?ops n y (finv y) ?aL ?aR ?aO ?sL ?sR fl ?vecs] =>
      destruct (build_polys_spec (length (p_vec s)) n y (finv y) aL aR aO sL sR fl vecs) as (l & r & tp & Hb & Ltp & Hev & Hcoef) end.
    { rewrite map_length, Hvec. reflexivity. }
    { rewrite WVC, map_map. reflexivity. }
    { rewrite Hvec. apply Forall_map. eapply Forall_impl; [|apply (vmax_all (p_vec s) (length (p_aL s)))]. intros bv Hb. cbv beta in Hb |- *.
      change (vmax (p_vec s) (length (p_aL s))) with (p_size s) in Hb. lia. }
    rewrite Hb. cbn [opt_bind]. set (op := op_degree_of (length (p_vec s))) in *.
    match goal with |- context [append_Ts E op ?ds ?T ?tr] => destruct (append_Ts_total op T ds tr) as (trT & HTs) end.
    { intros d Hd. apply in_seq in Hd. apply op_le_17 in H17. fold op in H17. lia. }
    { intros d Hd. apply in_seq in Hd. rewrite map_length, seq_length. lia. }
    rewrite HTs. cbn [opt_bind].
    destruct (Hch trT "u"%string) as (u & tru & -> & _). cbn [opt_bind].
    destruct (Hch tru "x"%string) as (x & trx & -> & _). cbn [opt_bind].
    destruct (Hev x) as (lx & rx & -> & -> & Llx & Lrx & _). cbn [opt_bind].
    rewrite Hcoef, t2_value_spec.
    2:{ exact Hy0. } 2-7: first [assumption | symmetry; assumption | rewrite (proj1 (proj1 Hi2)), <- Hn; reflexivity | idtac].
    2:{ destruct Hi2 as [H1 H2]. lia. } 2:{ destruct Hi2 as [H1 H2]. lia. }
    rewrite (proj2 (feqb_true _ _) eq_refl), orb_true_r. cbn [guard].
    match goal with |- context [challenge_scalar E ?a "w"] => destruct (Hch a "w"%string) as (w & trw & -> & _) end. cbn [opt_bind].
    assert (HnN : (n <= N)%nat) by apply next_power_of_two_ge.
    match goal with |- context [ipp_create E ?a ?b ?c ?d ?e ?f ?h ?i] => destruct (ipp_create_total E a b c d e f h i (Nat.log2_up n) Hch) as ((ipp & tri) & Hipp) end.
    { rewrite firstn_length, LG. change (2 ^ Nat.log2_up n)%nat with N. lia. }
    1-5: rewrite ?zipw_length, ?app_length, ?map_length, ?repeat_length, ?seq_length, ?firstn_length, ?exp_iter_length, ?app_length, ?repeat_length; lia.
    rewrite Hipp. cbn [opt_bind]. eexists _, _. reflexivity.
  Qed.

  Lemma padded_vars s v : p_var s v <> None -> p_var (padded s) v <> None.
  Proof.
    unfold padded. destruct v; cbn [p_var p_set_wires p_aL p_aR p_aO p_v p_vec]; try (intros H; exact H);
      intros H Hn; apply H; apply nth_error_None in Hn; rewrite app_length in Hn; apply nth_error_None; lia.
  Qed.
  Lemma prove_total_1 dbg rnd s :
    gens_wf g -> gates_inv s -> (length (p_vec s) <= 17)%nat -> good_challenges E -> p_def s = [] ->
    (next_power_of_two (p_size s) <= gens_capacity g)%nat ->
    Forall (Forall (fun x => p_var s (fst x) <> None)) (p_cs s) ->
    exists pf trf, r1cs_prove E dbg rnd pc g s = Some (Ok (pf, trf)).
  Proof.
    intros Hw Hi H17 Hch Hd Hc Hv. apply prove_total; auto.
    { pose proof (next_power_of_two_ge (p_size s)). lia. }
    intros tr. eexists. split; [apply one_phase; exact Hd|].
    change (p_size (p_set_tr (p_set_pend (padded s) None) (r1cs_1phase_domain_sep tr))) with (p_size (padded s)). rewrite padded_size.
    split; [auto|]. split; [exact Hc|]. cbn [p_set_tr p_cs]. change (p_cs (p_set_pend (padded s) None)) with (p_cs s).
    eapply Forall_impl; [|exact Hv]. intros lc. apply Forall_impl. intros x Hx.
    change (p_var (p_set_tr (p_set_pend (padded s) None) (r1cs_1phase_domain_sep tr)) (fst x)) with (p_var (padded s) (fst x)). apply padded_vars. exact Hx.
  Qed.
End Total.
