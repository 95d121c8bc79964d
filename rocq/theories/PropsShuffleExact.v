(** * C74: what the shuffle verifier says about proofs of the repository's prover *)
From Verif Require Import Shuffle ShuffleProofs PropsShuffle PropsShuffleBatch PropsClients AccProofs ShuffleBatch CSProofs CSLogic CSMore UtilProofs FlatProofs R1CS R1CSSpec R1CSCore R1CSProofs R1CSMain R1CSVerif R1CSMore R1CSMisc R1CSTotal IPPProofs R1CSPoly Lockstep SoundSpec SoundCount Toy PropsR1CS.
From Coq Require Import Permutation.
Local Open Scope F_scope.

Section Exact.
  Context {F : Field} {V : VSpace F}.
  Add Field FFshx : (f_th F).
  Variable E : TrEnv V.
  Variable pc : PedersenGens V.
  Variable g : BPGens V.

  (** [verify_exact] with the transcript of the second phase *)
  Lemma verify_exact_tr dbg rnd s t pf trf :
    agree pc g s t -> gates_inv s -> gens_wf g -> (gens_capacity g < 2 ^ 32)%nat -> pcB pc <> v0 ->
    r1cs_prove E dbg rnd pc g s = Some (Ok (pf, trf)) ->
    Forall (fun P => P <> v0) (validated_points (op_degree_of (length (p_vec s))) pf) ->
    exists s2 t2 y z x, p_create_randomized E (p_set_tr (padded s) (append_point E (append_point E (append_point E
               (append_u64 (p_tr s) "m" (N.of_nat (length (p_v s)))) "A_I1" (A_I1 pf)) "A_O1" (A_O1 pf)) "S1" (S1 pf))) = Some (Ok s2) /\
      r1cs_challenges E pf t = Some (t2, y, z, x) /\
      forall dbg' rr,
        (r1cs_verify E dbg' rr pf pc g t = Some (Ok tt) <-> rr = 0 \/ x = 0 \/ batched_constraints (p_asg s2) z (p_cs s2) = 0) /\
        (r1cs_verify E dbg' rr pf pc g t = Some (Ok tt) \/ r1cs_verify E dbg' rr pf pc g t = Some (Err VerificationError)).
  Proof.
    intros Ha Hi (Gr & Hr & HG & HH & LG & LH) Hcap HB Hp Hnz.
    destruct (prove_run E pc g _ _ _ _ _ Hp) as (s2 & tr1 & tr3 & y & z & u & x & w & try_ & trz & trT & tru & trx & trw & fl & l & r & tp & lx & rx & Gr' & Hr' & R).
    pose proof R as R'. destruct R' as [RG RH Rc1 _ _ _ Rtr1 Rs2 Rc2 _ _ _ _ _ _ _ _ _ _ _ _ _ _ _ _ _ _ _ _ Ripp].
    assert (Gr' = Gr) by congruence. assert (Hr' = Hr) by congruence. subst Gr' Hr'.
    assert (H32 : (length (ipp_L (pipp pf)) < 32)%nat).
    { destruct (ipp_create_spec _ _ _ _ _ _ _ _ _ _ _ Ripp) as (k & us & K1 & _ & _ & _ & _ & _ & _ & K8 & _).
      rewrite K8. apply pow2_lt_32. rewrite <- K1, firstn_length. eapply Nat.le_lt_trans; [|exact Hcap]. lia. }
    destruct (run_equation E pc g _ _ _ _ _ _ _ _ _ _ _ _ _ _ _ _ _ _ _ _ _ _ _ _ _ _ _ t R Ha Hi ltac:(lia) ltac:(lia) Hnz H32)
      as (t2 & C2 & Ha2 & Hi2 & _).
    exists s2, t2, y, z, x. split; [rewrite <- Rtr1; exact Rs2|]. split; [exact C2|]. intros dbg' rr.
    destruct (run_equation E pc g _ _ _ _ _ _ _ _ _ _ _ _ _ _ _ _ _ _ _ _ _ _ _ _ _ _ _ t (run_dbg E pc g _ dbg' _ _ _ _ _ _ _ _ _ _ _ _ _ _ _ _ _ _ _ _ _ _ _ _ _ _ R) Ha Hi ltac:(lia) ltac:(lia) Hnz H32)
      as (t2' & _ & _ & _ & Heq).
    destruct (Heq rr) as (vt & V1 & V2 & V3 & V4).
    assert (HV : r1cs_verify E dbg' rr pf pc g t = Some (if veqb (vsmul (- (rr * fpow x (op_degree_of (length (p_vec s))) * batched_constraints (p_asg s2) z (p_cs s2))) (pcB pc)) v0 then Ok tt else Err VerificationError)).
    { unfold r1cs_verify. rewrite V1. cbn [res_bind].
      rewrite (mega_check_value pc g vt _ (firstn (next_power_of_two (p_size s2)) Gr) (firstn (next_power_of_two (p_size s2)) Hr) V3 Rc2) by (unfold share_G, share_H; rewrite ?HG, ?HH; reflexivity).
      rewrite V4. reflexivity. }
    rewrite HV. set (op := op_degree_of (length (p_vec s))). set (D := batched_constraints _ _ _).
    destruct (veqb_spec _ _ (vsmul (- (rr * fpow x op * D)) (pcB pc)) v0) as [Hz|Hz]; (split; [|auto]).
    - split; [intros _|reflexivity]. apply vsmul_zero_iff in Hz; [|exact HB].
      apply fmul_eq_0 in Hz as [Hz|Hz]; [apply fmul_eq_0 in Hz as [Hz|Hz]; [auto|]|auto]. right. left. destruct (f_eq_dec x 0) as [|Hx]; [assumption|]. exfalso. apply (fpow_neq_0 x op Hx). exact Hz.
    - split; [discriminate|]. intros Hc. exfalso. apply Hz. apply vsmul_zero_iff; [exact HB|]. destruct Hc as [->|[->|Hc]]; [ring| |rewrite Hc; ring].
      assert (fpow (0 : F) op = 0) as ->; [|ring]. destruct op as [|op0] eqn:Eop; [exfalso; revert Eop; unfold op; rewrite op_degree_even; lia|cbn [fpow]; ring].
  Qed.

  (** the prover's callback, whatever the values are *)
  Lemma phase2_value tr0 tr (v1 v2 vb : list F) : good_challenges E -> (2 <= length v1)%nat -> length v2 = length v1 ->
    let x := map Committed (seq 0 (length v1)) in
    let y := map Committed (seq (length v1) (length v2)) in
    let s := shuffle_state tr0 (v1 ++ v2) vb x y in
    exists c tr' s2, challenge_scalar E (r1cs_2phase_domain_sep tr) "shuffle challenge" = Some (c, tr') /\
      p_create_randomized E (p_set_tr s tr) = Some (Ok s2) /\ p_vec s2 = [] /\ length (p_aL s2) = (2 * (length v1 - 1))%nat /\
      Forall (Forall (fun x => p_var s2 (fst x) <> None)) (p_cs s2) /\
      forall z, z <> 0 -> (batched_constraints (p_asg s2) z (p_cs s2) = 0 <-> prod_at c v1 = prod_at c v2).
  Proof.
    intros Hch H2 Hl x y s. destruct (Hch (r1cs_2phase_domain_sep tr) "shuffle challenge"%string) as (c & t' & Hc & _). exists c, t'.
    unfold p_create_randomized. cbn [s shuffle_state p_set_tr p_set_pend p_def p_tr p_set_def p_run_all shuffle_callback prun].
    rewrite Hc. set (s1 := p_set_tr _ t').
    change (pbind (shuffle_product c x) _) with (shuffle_body c x y).
    assert (Hh : honest s1).
    { split; [|constructor]. split; [reflexivity|]. split; [reflexivity|]. split; [intros i; cbn; destruct i; cbn; symmetry; apply fmul_0_l|]. discriminate. }
    assert (Hi : forall a k, (a + k <= length v1 + length v2)%nat -> Forall (issued s1) (map Committed (seq a k))).
    { intros a k Hk. apply Forall_map, Forall_forall. intros i Hin. apply in_seq in Hin. split; [|discriminate].
      cbn. intros Hn. apply nth_error_None in Hn. rewrite app_length in Hn. lia. }
    assert (Hx : map (p_asg s1) x = v1).
    { unfold x. rewrite map_committed; change (p_v s1) with (v1 ++ v2); [|rewrite app_length; lia].
      change (skipn 0 (v1 ++ v2)) with (v1 ++ v2). rewrite firstn_app, firstn_all, Nat.sub_diag, firstn_O. apply app_nil_r. }
    assert (Hy : map (p_asg s1) y = v2).
    { unfold y. rewrite map_committed; change (p_v s1) with (v1 ++ v2); [|rewrite app_length; lia].
      rewrite skipn_app, skipn_all, Nat.sub_diag. apply firstn_all. }
    set (q := pbind (shuffle_product c x) (fun ox => pbind (shuffle_product c y) (fun oy => PRet (ox, oy)))).
    destruct (wpc_sound (n := 0) E q (fun w ok' o => ok' (fst o) /\ ok' (snd o) /\ w (fst o) = prod_at c v1 /\ w (snd o) = prod_at c v2) s1 (issued s1) Hh (ok_sub_refl _)) as (s2 & a & ok' & Hr & Hh2 & _ & Hf & Hok & Ha).
    { intros w Hw. assert (Hm : forall l, Forall (issued s1) l -> map w l = map (p_asg s1) l).
      { intros l Hl'. apply map_ext_in. intros u Hu. apply Hw. exact (proj1 (Forall_forall _ _) Hl' u Hu). }
      assert (W1 : w One = 1) by apply (agrees_one _ _ Hw). assert (O1 : issued s1 One) by (split; discriminate).
      assert (Ix : Forall (issued s1) x) by (apply Hi; lia). assert (Iy : Forall (issued s1) y) by (apply Hi; lia).
      apply wpc_bind. eapply wpc_mono; [|apply wpc_product; [exact W1|exact O1|exact Ix|unfold x; rewrite map_length, seq_length; exact H2]]. intros ok1 ox (Hs1 & Hox & Ex).
      apply wpc_bind. eapply wpc_mono; [|apply wpc_product; [exact W1|apply Hs1; exact O1|eapply Forall_impl; [|exact Iy]; exact Hs1|unfold y; rewrite map_length, seq_length; lia]].
      intros ok2 oy (Hs2 & Hoy & Ey). cbn [wpc fst snd]. rewrite Ex, Ey, (Hm x Ix), (Hm y Iy), Hx, Hy. repeat split; [apply Hs2; exact Hox|exact Hoy]. }
    destruct a as [ox oy]. cbn [fst snd] in Ha. destruct (Ha _ (agrees_self _)) as (Oox & Ooy & Ex & Ey). apply Hok in Oox, Ooy.
    assert (Hb : prun E (shuffle_body c x y) s1 = Some (p_constrain s2 (lc_sub (lc_var ox) (lc_var oy)), Ok tt)).
    { unfold q in Hr. unfold shuffle_body. rewrite prun_pbind in Hr |- *. destruct (prun E (shuffle_product c x) s1) as [[s3 ox']|]; [|discriminate Hr].
      rewrite prun_pbind in Hr |- *. destruct (prun E (shuffle_product c y) s3) as [[s4 oy']|]; [|discriminate Hr]. cbn [prun] in *. apply Some_inj in Hr. injection Hr as -> -> ->. reflexivity. }
    rewrite Hb. exists (p_constrain s2 (lc_sub (lc_var ox) (lc_var oy))). split; [reflexivity|]. split; [reflexivity|]. split; [destruct Hf as (_ & _ & Hf & _); exact Hf|].
    split; [rewrite (body_len _ _ _ _ _ _ _ Hb); unfold x, y; rewrite !map_length, !seq_length; cbn; lia|].
    destruct Hh2 as [_ Hcs]. change (p_cs (p_constrain s2 (lc_sub (lc_var ox) (lc_var oy)))) with (p_cs s2 ++ [lc_sub (lc_var ox) (lc_var oy)]).
    split.
    - apply Forall_app. split.
      + eapply Forall_impl; [|exact Hcs]. intros lc [Hlc _]. eapply Forall_impl; [|exact Hlc]. intros v [Hv _]. exact Hv.
      + constructor; [|constructor]. destruct Oox as [Oox _], Ooy as [Ooy _]. repeat constructor; cbn; assumption.
    - intros z Hz. change (p_asg (p_constrain s2 (lc_sub (lc_var ox) (lc_var oy)))) with (p_asg s2).
      rewrite batched_constraints_peval, map_app, peval_app, peval_zeros, map_length.
      2: { apply Forall_map. eapply Forall_impl; [|exact Hcs]. intros lc [_ H]. exact H. }
      cbn [map peval]. assert (Hd : lc_val (p_asg s2) (lc_sub (lc_var ox) (lc_var oy)) = prod_at c v1 - prod_at c v2) by (rewrite <- Ex, <- Ey; cbn; ring).
      rewrite Hd. split.
      + intros H. assert (H' : z * (fpow z (length (p_cs s2)) * (prod_at c v1 - prod_at c v2)) = 0) by (rewrite <- H; ring).
        apply fmul_eq_0 in H' as [H'|H']; [contradiction|]. apply fmul_eq_0 in H' as [H'|H']; [exfalso; exact (fpow_neq_0 _ _ Hz H')|]. apply fsub_0_iff. exact H'.
      + intros ->. ring.
  Qed.

  Lemma one_constraint (z a b : F) tr0 (ba bb : F) : z * peval (map (lc_val (p_asg (mkP tr0 [lc_sub (lc_var (Committed 1)) (lc_var (Committed 0))] [] [] [] [a; b] [ba; bb] [] [] None))) [lc_sub (lc_var (Committed 1)) (lc_var (Committed 0))]) z = z * (b - a).
  Proof. cbn. ring. Qed.
  Lemma one_zero (z a : F) : z * (a - a) = 0.
  Proof. ring. Qed.
End Exact.

(** The repository's own prover, run on any two lists of one length, makes a proof; when
    the challenges are not zero, no proof point is at infinity and the verifier's random
    scalar is not zero, that proof is accepted exactly if the two values are equal (lists
    of one value), or if the products of the [x_i - c] and of the [y_i - c] agree for the
    challenge [c] drawn by the callback.  It is never refused in another way. *)
Theorem C74_shuffle_exact : forall (F : Field) (V : VSpace F) (E : TrEnv V) pc g tr dbg rnd (input output : list (F * F)),
  gens_wf g -> (gens_capacity g < 2 ^ 32)%nat -> pcB pc <> v0 ->
  (forall tr lb, exists c tr', challenge_scalar E tr lb = Some (c, tr') /\ c <> 0) ->
  input <> [] -> length output = length input ->
  (next_power_of_two (2 * (length input - 1)) <= gens_capacity g)%nat ->
  exists pf t, let commitments := map (fun p => pc_commit pc (fst p) (snd p)) in
    shuffle_prove E dbg rnd pc g tr input output = Some (Ok (pf, commitments input, commitments output)) /\
    shuffle_statement E tr (commitments input) (commitments output) = Some (Ok t) /\
    (Forall (fun P => P <> v0) (validated_points (op_degree_of 0) pf) ->
     forall dbg' rr, rr <> 0 ->
     let verdict := shuffle_verify E dbg' rr pf pc g tr (commitments input) (commitments output) in
     (verdict = Some (Ok tt) \/ verdict = Some (Err VerificationError)) /\
     (verdict = Some (Ok tt) <->
      if (length input =? 1)%nat then map fst input = map fst output
      else exists c, drawn E pf t = Some c /\ prod_at c (map fst input) = prod_at c (map fst output))).
Proof.
  intros F V E pc g tr dbg rnd input output Hw Hc32 HB Hch Hne Hlen Hcap. cbv zeta.
  set (tr0 := shuffle_transcript tr (length input)).
  destruct (session_commits E pc g tr0 input (p_new tr0) (v_new tr0) (ses_new _ _ _ _) eq_refl) as (s1 & t1 & P1 & V1 & S1 & L1).
  destruct (session_commits E pc g tr0 output s1 t1 S1 L1) as (s2 & t2 & P2 & V2 & S2 & L2).
  destruct (p_commits_spec E pc input (p_new tr0)) as [ta Ha]. rewrite P1 in Ha. injection Ha as Ha.
  destruct (p_commits_spec E pc output s1) as [tb Hb]. rewrite P2 in Hb. injection Hb as Hb.
  assert (Hv1 : p_v s1 = map fst input) by (rewrite Ha; reflexivity).
  assert (Hs2 : s2 = mkP tb [] [] [] [] (map fst input ++ map fst output) (map snd input ++ map snd output) [] [] None).
  { rewrite Hb, Ha. reflexivity. }
  unfold shuffle_prove, shuffle_verify, shuffle_statement. rewrite map_length. fold tr0. rewrite P1, P2, V1, V2.
  cbn [p_new p_v length] in *. rewrite Hv1, map_length in *. clear Hb Ha P1 P2 V1 V2.
  set (x := map Committed (seq 0 (length input))). set (y := map Committed (seq (length input) (length output))).
  assert (Lx : length x = length input) by (unfold x; rewrite map_length, seq_length; reflexivity).
  assert (Ly : length y = length input) by (unfold y; rewrite map_length, seq_length; exact Hlen).
  destruct (Nat.eqb_spec (length input) 1) as [H1|Hn1].
  - (* one value *)
    assert (Hg : shuffle_gadget (F := F) x y = PConstrain (lc_sub (lc_var (Committed 1)) (lc_var (Committed 0))) (PRet (Ok tt))).
    { unfold x, y. rewrite Hlen, H1. reflexivity. }
    rewrite Hg. cbn [prun vrun]. set (s3 := p_constrain s2 _). set (t3 := v_constrain t2 _).
    assert (S3 : session E pc g tr0 s3 t3).
    { eapply (ses_gadget E pc g tr0 _ (PConstrain (lc_sub (lc_var (Committed 1)) (lc_var (Committed 0))) (PRet tt)) _ s2 t2); [exact S2|repeat constructor|reflexivity|reflexivity]. }
    destruct input as [|[a ba] [|? ?]]; cbn in H1; try discriminate. destruct output as [|[b bb] [|? ?]]; cbn in Hlen; try discriminate.
    destruct (C08_prove_total F V E pc g tr0 s3 t3 dbg rnd S3) as (pf & trf & Hpf).
    { unfold s3. rewrite Hs2. reflexivity. } { exact Hw. } { exact Hch. } { unfold s3. rewrite Hs2. cbn. lia. }
    { unfold s3. rewrite Hs2. exact Hcap. }
    { unfold s3. rewrite Hs2. cbn. repeat constructor; discriminate. }
    rewrite Hpf. cbn [res_bind fst]. exists pf, t3. split; [reflexivity|]. split; [reflexivity|]. intros Hnz dbg' rr Hrr.
    destruct (C10_exact F V E pc g tr0 s3 t3 dbg rnd pf trf S3) as (t4 & y4 & z & x4 & Hr1 & Hv).
    { unfold s3. rewrite Hs2. reflexivity. } { exact Hw. } { exact Hc32. } { exact HB. } { exact Hpf. } { unfold s3. rewrite Hs2. exact Hnz. }
    destruct (challenges_nonzero E _ _ _ _ _ _ Hch Hr1) as [Hz Hx]. destruct (Hv dbg' rr) as [Hv1' Hv2]. split; [exact Hv2|]. rewrite Hv1'.
    assert (Hbc : batched_constraints (p_asg s3) z (p_cs s3) = z * (b - a)).
    { unfold s3. rewrite Hs2, batched_constraints_peval. apply one_constraint. }
    rewrite Hbc. cbn [map fst]. split.
    + intros [H|[H|H]]; [contradiction|contradiction|]. apply fmul_eq_0 in H as [H|H]; [contradiction|]. assert (Hab : b = a) by (apply fsub_0_iff; exact H). rewrite Hab. reflexivity.
    + intros H. injection H as ->. right. right. apply one_zero.
  - assert (H2 : (2 <= length input)%nat) by (destruct input; [contradiction|cbn [length] in Hn1 |- *; clear - Hn1; lia]).
    assert (Hg : shuffle_gadget (F := F) x y = PSpecify (shuffle_callback x y) (PRet (Ok tt))).
    { unfold shuffle_gadget. rewrite Lx, Ly, Nat.eqb_refl. destruct x as [|x0 [|x1 x']]; [reflexivity|cbn in Lx; lia|reflexivity]. }
    rewrite Hg. cbn [prun vrun]. set (s3 := p_set_def s2 _). set (t3 := v_set_def t2 _).
    assert (S3 : session E pc g tr0 s3 t3).
    { eapply (ses_gadget E pc g tr0 _ (shuffle_gadget x y) (shuffle_gadget x y) s2 t2); [exact S2|apply same_shuffle|rewrite Hg; reflexivity|rewrite Hg; reflexivity]. }
    assert (Hs3 : s3 = shuffle_state tb (map fst input ++ map fst output) (map snd input ++ map snd output) x y).
    { unfold s3. rewrite Hs2. reflexivity. }
    assert (Hpad : padded s3 = s3) by (rewrite Hs3; reflexivity).
    assert (Hph : forall tr1, exists c tr' s4, challenge_scalar E (r1cs_2phase_domain_sep tr1) "shuffle challenge" = Some (c, tr') /\
      p_create_randomized E (p_set_tr s3 tr1) = Some (Ok s4) /\ p_vec s4 = [] /\ length (p_aL s4) = (2 * (length input - 1))%nat /\
      Forall (Forall (fun x => p_var s4 (fst x) <> None)) (p_cs s4) /\
      forall z, z <> 0 -> (batched_constraints (p_asg s4) z (p_cs s4) = 0 <-> prod_at c (map fst input) = prod_at c (map fst output))).
    { intros tr1. rewrite Hs3. pose proof (phase2_value E tb tr1 (map fst input) (map fst output) (map snd input ++ map snd output) Hch) as Hr.
      rewrite !map_length in Hr. exact (Hr H2 Hlen). }
    destruct (session_agree E pc g tr0 s3 t3 S3) as [Hi Hag].
    destruct (prove_total E pc g dbg rnd s3 Hw) as (pf & trf & Hpf).
    { apply (session_agree E pc g tr0 s3 t3 S3). } { rewrite Hs3. cbn. lia. } { exact Hch. }
    { rewrite Hs3. cbn. lia. }
    { intros tr1. rewrite Hpad. destruct (Hph tr1) as (c & tr' & s4 & _ & Hr & Hv & Hl & Hcs & _). exists s4. split; [exact Hr|].
      split; [left; rewrite Hs3; reflexivity|]. split; [unfold p_size; rewrite Hv, Hl; exact Hcap|]. exact Hcs. }
    rewrite Hpf. cbn [res_bind fst]. exists pf, t3. split; [reflexivity|]. split; [reflexivity|]. intros Hnz dbg' rr Hrr.
    assert (Hnz' : Forall (fun P => P <> v0) (validated_points (op_degree_of (length (p_vec s3))) pf)) by (rewrite Hs3; exact Hnz).
    destruct (verify_exact_tr E pc g dbg rnd s3 t3 pf trf Hag Hi Hw Hc32 HB Hpf Hnz') as (s5 & t5 & y5 & z & x5 & Hr5 & Hch5 & Hv).
    destruct (challenges_nonzero E _ _ _ _ _ _ Hch Hch5) as [Hz Hx]. destruct (Hv dbg' rr) as [Hv1' Hv2]. split; [exact Hv2|]. rewrite Hv1'. clear Hv1' Hv2 Hv.
    rewrite Hpad in Hr5. set (trc := append_point E _ "S1" _) in Hr5.
    assert (Hd : drawn E pf t3 = option_map fst (challenge_scalar E (r1cs_2phase_domain_sep trc) "shuffle challenge")).
    { unfold drawn, trc. rewrite (ag_tr _ _ _ _ Hag), (ag_V _ _ _ _ Hag). do 6 f_equal. rewrite zipw_length, <- (ag_vb _ _ _ _ Hag), Nat.min_id. reflexivity. }
    destruct (Hph trc) as (c & tr' & s4 & Hc & Hr4 & _ & _ & _ & Hiff). rewrite Hr5 in Hr4. injection Hr4 as <-.
    rewrite Hd, Hc. cbn [option_map fst]. rewrite (Hiff z Hz). split.
    + intros [H|[H|H]]; [contradiction|contradiction|]. exists c. split; [reflexivity|exact H].
    + intros (c' & Ec & H). injection Ec as <-. right. right. exact H.
Qed.
Print Assumptions C74_shuffle_exact.

(** So proofs of a wrong shuffle made with the repository's prover are refused, unless the
    challenge of the callback is one of at most [k] values that the two lists determine. *)
Theorem C74_shuffle_rejects : forall (F : Field) (ins outs : list F), length outs = length ins -> ~ Permutation ins outs ->
  exists Unlucky : F -> Prop, at_most (length ins) Unlucky /\
  forall (V : VSpace F) (E : TrEnv V) pc g tr dbg rnd (input output : list (F * F)),
  map fst input = ins -> map fst output = outs ->
  gens_wf g -> (gens_capacity g < 2 ^ 32)%nat -> pcB pc <> v0 ->
  (forall tr lb, exists c tr', challenge_scalar E tr lb = Some (c, tr') /\ c <> 0) ->
  (next_power_of_two (2 * (length ins - 1)) <= gens_capacity g)%nat ->
  exists pf t, let commitments := map (fun p => pc_commit pc (fst p) (snd p)) in
    shuffle_prove E dbg rnd pc g tr input output = Some (Ok (pf, commitments input, commitments output)) /\
    shuffle_statement E tr (commitments input) (commitments output) = Some (Ok t) /\
    (Forall (fun P => P <> v0) (validated_points (op_degree_of 0) pf) ->
     (length ins = 1%nat \/ forall c, drawn E pf t = Some c -> ~ Unlucky c) ->
     forall dbg' rr, rr <> 0 ->
     shuffle_verify E dbg' rr pf pc g tr (commitments input) (commitments output) = Some (Err VerificationError)).
Proof.
  intros F ins outs Hl Hnp. exists (fun c => prod_at c ins = prod_at c outs). split; [apply few_collisions; [symmetry; exact Hl|exact Hnp]|].
  intros V E pc g tr dbg rnd input output Ei Eo Hw Hc32 HB Hch Hcap.
  assert (Li : length input = length ins) by (rewrite <- Ei, map_length; reflexivity). assert (Lo : length output = length outs) by (rewrite <- Eo, map_length; reflexivity).
  assert (Hne : input <> []). { intros ->. subst ins. destruct outs; [apply Hnp; constructor|discriminate Hl]. }
  rewrite <- Li in Hcap. destruct (C74_shuffle_exact F V E pc g tr dbg rnd input output Hw Hc32 HB Hch Hne ltac:(congruence) Hcap) as (pf & t & Hp & Ht & Hv).
  exists pf, t. split; [exact Hp|]. split; [exact Ht|]. intros Hnz Hu dbg' rr Hrr. destruct (Hv Hnz dbg' rr Hrr) as [[H|H] Hiff]; [exfalso|exact H].
  apply Hiff in H. rewrite Li, Ei, Eo in H. destruct (Nat.eqb_spec (length ins) 1) as [H1|H1].
  - apply Hnp. rewrite H. apply Permutation_refl.
  - destruct Hu as [Hu|Hu]; [contradiction|]. destruct H as (c & Hd & H). exact (Hu c Hd H).
Qed.
Print Assumptions C74_shuffle_rejects.

(** A wrong list meets the hypotheses and is refused; with the toy environment, whose
    challenges are all 5, a wrong list with the product 0 at 5, as the inputs have it, is accepted. *)
(* test data, no code modelled *)
Definition shx_in : list (F101 * F101) := [(z101 10, z101 13); (z101 5, z101 8); (z101 20, z101 23)].
(* as above, no code modelled *)
Definition shx_wrong : list (F101 * F101) := [(z101 30, z101 33); (z101 20, z101 23); (z101 10, z101 13)].
(* as above, no code modelled *)
Definition shx_unlucky : list (F101 * F101) := [(z101 30, z101 33); (z101 5, z101 8); (z101 40, z101 43)].
(* test helper, no code modelled: points not at infinity, the challenge, the products, the verdict *)
Definition shx_run (output : list (F101 * F101)) : option (bool * bool * option (Res unit)) :=
  match shuffle_prove sh_env true rnd101 pc101 g101 [] shx_in output with
  | Some (Ok (pf, cin, cout)) =>
      match shuffle_statement sh_env [] cin cout with
      | Some (Ok t) =>
          match drawn sh_env pf t with
          | Some c => Some (forallb (fun P => negb (veqb P v0)) (validated_points (op_degree_of 0) pf), feqb (prod_at c (map fst shx_in)) (prod_at c (map fst output)),
              shuffle_verify sh_env true (z101 7) pf pc101 g101 [] cin cout)
          | None => None
          end
      | _ => None
      end
  | _ => None
  end.
Example C74_exact_demo : gens_wf g101 /\ (gens_capacity g101 < 2 ^ 32)%nat /\ pcB pc101 <> v0 /\
  (forall tr lb, exists c tr', challenge_scalar sh_env tr lb = Some (c, tr') /\ c <> 0) /\ shx_in <> [] /\
  length shx_wrong = length shx_in /\ length shx_unlucky = length shx_in /\ ~ Permutation (map fst shx_in) (map fst shx_wrong) /\ ~ Permutation (map fst shx_in) (map fst shx_unlucky) /\
  (next_power_of_two (2 * (length shx_in - 1)) <= gens_capacity g101)%nat /\
  shx_run shx_wrong = Some (true, false, Some (Err VerificationError)) /\ shx_run shx_unlucky = Some (true, true, Some (Ok tt)).
Proof.
  split; [apply gens_wf_new|]. split; [apply (Nat.lt_le_trans _ (2 ^ 8)); [apply Nat.ltb_lt; vm_compute; reflexivity|apply Nat.pow_le_mono_r; lia]|].
  split; [discriminate|]. split; [intros tr lb; apply const_env_good; apply feqb_false; vm_compute; reflexivity|]. split; [discriminate|].
  split; [reflexivity|]. split; [reflexivity|].
  split; [intros H; pose proof (Permutation_in (z101 5) H (or_intror (or_introl eq_refl))) as Hin; cbn in Hin; destruct Hin as [Hin|[Hin|[Hin|[]]]]; discriminate Hin|].
  split; [intros H; pose proof (Permutation_in (z101 10) H (or_introl eq_refl)) as Hin; cbn in Hin; destruct Hin as [Hin|[Hin|[Hin|[]]]]; discriminate Hin|].
  split; [apply Nat.leb_le; vm_compute; reflexivity|]. split; vm_compute; reflexivity.
Qed.

(** ** The helpers on wrong shuffles (C85) *)

(** For two lists that are not permutations of each other the helper panics, because the verifier
    refuses the proof, and any batch with that proof is refused except for at most one value
    of one of the weights; all unless the challenge of the callback is one of at most [k]
    values. *)
Theorem C85_wrong_shuffle : forall (F : Field) (ins outs : list F), length outs = length ins -> ~ Permutation ins outs ->
  exists Unlucky : F -> Prop, at_most (length ins) Unlucky /\
  forall (V : VSpace F) (E : TrEnv V) chain dbg rnd rr pc tr (input output : list (F * F)),
  map fst input = ins -> map fst output = outs -> pcB pc <> v0 -> rr <> 0 ->
  (forall tr lb, exists c tr', challenge_scalar E tr lb = Some (c, tr') /\ c <> 0) -> (next_power_of_two (2 * length ins) < 2 ^ 32)%nat ->
  let g := kshuffle_gens chain (length ins) in
  exists p t, shuffle_prove E dbg rnd pc g tr input output = Some (Ok p) /\
    shuffle_statement E tr (snd (fst p)) (snd p) = Some (Ok t) /\
    (regular p -> (length ins = 1%nat \/ forall c, drawn E (fst (fst p)) t = Some c -> ~ Unlucky c) ->
     kshuffle_helper E chain dbg rnd rr pc tr input output = None /\
     forall before after, Forall (shuffle_shape (length ins)) (before ++ after) ->
       let jobs := before ++ (p, rr) :: after in
       let accepts ws := shuffles_verify E dbg pc g tr jobs ws = Some tt in
       (forall ws, length jobs = S (length ws) -> ~ accepts ws) \/
       (exists j, (S j < length jobs)%nat /\ forall ws, length jobs = S (length ws) -> forall c c', accepts (upd ws j (fun _ => c)) -> accepts (upd ws j (fun _ => c')) -> c = c')).
Proof.
  intros F ins outs Hl Hnp. destruct (C74_shuffle_rejects F ins outs Hl Hnp) as (U & HU & K). exists U. split; [exact HU|].
  intros V E chain dbg rnd rr pc tr input output Ei Eo HB Hrr Hch H32 g.
  assert (Hg : gens_wf g) by apply gens_wf_new.
  assert (Hcap : (next_power_of_two (2 * (length ins - 1)) <= gens_capacity g)%nat).
  { unfold g, kshuffle_gens. rewrite gens_cap_new. apply pad_le. pose proof (next_power_of_two_ge (2 * length ins)) as G. unfold next_power_of_two in G. lia. }
  destruct (K V E pc g tr dbg rnd input output Ei Eo Hg) as (pf & t & P & T & R); [unfold g, kshuffle_gens; rewrite gens_cap_new; exact H32|exact HB|exact Hch|exact Hcap|].
  cbv zeta in P, T, R. eexists. exists t. split; [exact P|]. cbn [fst snd]. split; [exact T|]. intros Hreg Hu. specialize (R Hreg Hu).
  assert (Li : length input = length ins) by (rewrite <- Ei, map_length; reflexivity).
  split.
  - unfold kshuffle_helper, kshuffle_run. rewrite Li. fold g. rewrite P. cbn [unwrap opt_bind]. rewrite (R dbg rr Hrr). reflexivity.
  - intros before after Hs. cbv zeta. apply (C85_batch_sound F V E dbg pc g tr (length ins)); [exact Hg| |exact Hcap|].
    + apply Forall_app in Hs as [Hb Ha]. apply Forall_app. split; [exact Hb|]. constructor; [|exact Ha]. split; [rewrite map_length; exact Li|].
      clear R T Hreg Hu. unfold shuffle_prove in P. destruct (p_commits E pc _ input) as [s1 [ci xi]]. destruct (p_commits E pc s1 output) as [s2 [co yo]]. destruct (prun E _ s2) as [[s3 [u|e]]|]; try discriminate P.
      destruct (r1cs_prove E dbg rnd pc g s3) as [[[pf' trf]|]|] eqn:Hpr; try discriminate P. cbn [res_bind fst] in P. apply Some_inj in P. injection P as -> _ _. exact (proof_lengths E _ _ _ _ _ _ _ Hpr).
    + intros Hall. apply Forall_app in Hall as [_ Hall]. apply Forall_inv in Hall. cbn [shuffle_valid] in Hall. rewrite (R dbg rr Hrr) in Hall. discriminate Hall.
Qed.
Print Assumptions C85_wrong_shuffle.
(** A wrong shuffle that meets the hypotheses: the proof is regular, the products differ at
    the challenge 5, the helper panics, and so does the verification of a batch with an
    honest shuffle. *)
(* test helper, no code modelled *)
Definition wrong_run : option (bool * bool * option unit * option unit) :=
  match shuffle_prove sh_env true rnd101 pc101 (kshuffle_gens sb_chain 2) [] two_in two_wrong, shuffle_prove sh_env true rnd101 pc101 (kshuffle_gens sb_chain 2) [] two_in two_out with
  | Some (Ok p), Some (Ok q) =>
      match shuffle_statement sh_env [] (snd (fst p)) (snd p) with
      | Some (Ok t) =>
          match drawn sh_env (fst (fst p)) t with
          | Some c => Some (forallb (fun P => negb (veqb P v0)) (validated_points (op_degree_of 0) (fst (fst p))), feqb (prod_at c (map fst two_in)) (prod_at c (map fst two_wrong)),
              kshuffle_helper sh_env sb_chain true rnd101 (z101 7) pc101 [] two_in two_wrong,
              shuffles_verify sh_env true pc101 (kshuffle_gens sb_chain 2) [] [(q, z101 8); (p, z101 7)] [z101 55])
          | None => None
          end
      | _ => None
      end
  | _, _ => None
  end.
Example C85_wrong_demo : length (map fst two_wrong) = length (map fst two_in) /\ ~ Permutation (map fst two_in) (map fst two_wrong) /\ pcB pc101 <> v0 /\ z101 7 <> (0 : F101) /\
  (forall tr lb, exists c tr', challenge_scalar sh_env tr lb = Some (c, tr') /\ c <> 0) /\ (next_power_of_two (2 * length (map fst two_in)) < 2 ^ 32)%nat /\
  wrong_run = Some (true, false, None, None).
Proof.
  split; [reflexivity|]. split; [intros H; pose proof (Permutation_in (z101 3) H (or_introl eq_refl)) as Hin; cbn in Hin; destruct Hin as [Hin|[Hin|[]]]; discriminate Hin|].
  split; [discriminate|]. split; [discriminate|]. split; [intros tr lb; apply const_env_good; apply feqb_false; vm_compute; reflexivity|].
  split; [apply (Nat.lt_le_trans _ (2 ^ 8)); [apply Nat.ltb_lt; vm_compute; reflexivity|apply Nat.pow_le_mono_r; lia]|]. vm_compute. reflexivity.
Qed.
