(** * C74: the shuffle proof *)
From Verif Require Import Shuffle ShuffleProofs CSProofs CSLogic CSMore UtilProofs R1CSProofs R1CSMain R1CSVerif R1CSMore R1CSTotal Lockstep SoundSpec SoundLift SoundCount Toy PropsR1CS PropsSound.
From Coq Require Import Permutation.
Local Open Scope F_scope.

(** ** Completeness *)

(** For outputs that are a permutation of at least one input, with generators for
    [2 (k - 1)] multipliers, the prover produces a proof, and the verifier accepts it
    for the commitments to the inputs and outputs.  Only proofs with a point at infinity
    are refused. *)
Theorem C74_shuffle_complete : forall (F : Field) (V : VSpace F) (E : TrEnv V) pc g tr dbg rnd (input output : list (F * F)),
  gens_wf g -> (gens_capacity g < 2 ^ 32)%nat ->
  (forall tr lb, exists c tr', challenge_scalar E tr lb = Some (c, tr') /\ c <> 0) ->
  input <> [] -> Permutation (map fst input) (map fst output) ->
  (next_power_of_two (2 * (length input - 1)) <= gens_capacity g)%nat ->
  exists pf, let commitments := map (fun p => pc_commit pc (fst p) (snd p)) in
    shuffle_prove E dbg rnd pc g tr input output = Some (Ok (pf, commitments input, commitments output)) /\
    (Forall (fun P => P <> v0) (validated_points (op_degree_of 0) pf) ->
     forall dbg' rr, shuffle_verify E dbg' rr pf pc g tr (commitments input) (commitments output) = Some (Ok tt)).
Proof.
  intros F V E pc g tr dbg rnd input output Hw Hc32 Hch Hne Hp Hcap. cbv zeta.
  assert (Hlen : length output = length input) by (apply Permutation_length in Hp; rewrite !map_length in Hp; symmetry; exact Hp).
  set (tr0 := shuffle_transcript tr (length input)).
  destruct (session_commits E pc g tr0 input (p_new tr0) (v_new tr0) (ses_new _ _ _ _) eq_refl) as (s1 & t1 & P1 & V1 & S1 & L1).
  destruct (session_commits E pc g tr0 output s1 t1 S1 L1) as (s2 & t2 & P2 & V2 & S2 & L2).
  destruct (p_commits_spec E pc input (p_new tr0)) as [ta Ha]. rewrite P1 in Ha. injection Ha as Ha.
  destruct (p_commits_spec E pc output s1) as [tb Hb]. rewrite P2 in Hb. injection Hb as Hb.
  assert (Hv1 : p_v s1 = map fst input) by (rewrite Ha; reflexivity).
  assert (Hs2 : s2 = mkP tb [] [] [] [] (map fst input ++ map fst output) (map snd input ++ map snd output) [] [] None).
  { rewrite Hb, Ha. reflexivity. }
  unfold shuffle_prove, shuffle_verify, shuffle_statement. rewrite map_length. fold tr0. rewrite P1, P2, V1, V2.
  cbn [p_new p_v length] in *. rewrite Hv1, map_length in *. clear Hb Ha P1 P2 V1 V2.
  set (x := map Committed (seq 0 (length input))). set (y := map Committed (seq (length input) (length output))).
  assert (Lx : length x = length input) by (unfold x; rewrite map_length, seq_length; reflexivity).
  assert (Ly : length y = length input) by (unfold y; rewrite map_length, seq_length; exact Hlen).
  destruct (Nat.eq_dec (length input) 1) as [H1|Hn1].
  - (* one value *)
    assert (Hg : shuffle_gadget (F := F) x y = PConstrain (lc_sub (lc_var (Committed 1)) (lc_var (Committed 0))) (PRet (Ok tt))).
    { unfold x, y. rewrite Hlen, H1. reflexivity. }
    rewrite Hg. cbn [prun vrun]. set (s3 := p_constrain s2 _). set (t3 := v_constrain t2 _).
    assert (S3 : session E pc g tr0 s3 t3).
    { eapply (ses_gadget E pc g tr0 _ (PConstrain (lc_sub (lc_var (Committed 1)) (lc_var (Committed 0))) (PRet tt)) _ s2 t2); [exact S2|repeat constructor|reflexivity|reflexivity]. }
    destruct input as [|[a ba] [|? ?]]; cbn in H1; try discriminate. destruct output as [|[b bb] [|? ?]]; cbn in Hlen; try discriminate.
    apply Permutation_length_1 in Hp. cbn in Hp. subst b.
    destruct (C08_prove_total F V E pc g tr0 s3 t3 dbg rnd S3) as (pf & trf & Hpf).
    { unfold s3. rewrite Hs2. reflexivity. } { exact Hw. } { exact Hch. } { unfold s3. rewrite Hs2. cbn. lia. }
    { unfold s3. rewrite Hs2. exact Hcap. }
    { unfold s3. rewrite Hs2. cbn. repeat constructor; discriminate. }
    rewrite Hpf. cbn [res_bind fst]. exists pf. split; [reflexivity|]. intros Hnz dbg' rr. cbn [res_bind].
    eapply (C08_complete F V E pc g tr0 s3 t3 dbg rnd pf trf S3).
    { unfold s3. rewrite Hs2. reflexivity. } { exact Hw. } { exact Hc32. }
    { unfold s3. rewrite Hs2. split; [reflexivity|]. split.
      - intros i. unfold p_asg. cbn. destruct i; cbn; symmetry; apply fmul_0_l.
      - constructor; [|constructor]. apply lc_val_diff. reflexivity. }
    { exact Hpf. } { unfold s3. rewrite Hs2. exact Hnz. }
  - assert (H2 : (2 <= length input)%nat) by (destruct input; [contradiction|cbn [length] in Hn1 |- *; clear - Hn1; lia]).
    assert (Hg : shuffle_gadget (F := F) x y = PSpecify (shuffle_callback x y) (PRet (Ok tt))).
    { unfold shuffle_gadget. rewrite Lx, Ly, Nat.eqb_refl. destruct x as [|x0 [|x1 x']]; [reflexivity|cbn in Lx; lia|reflexivity]. }
    rewrite Hg. cbn [prun vrun]. set (s3 := p_set_def s2 _). set (t3 := v_set_def t2 _).
    assert (S3 : session E pc g tr0 s3 t3).
    { eapply (ses_gadget E pc g tr0 _ (shuffle_gadget x y) (shuffle_gadget x y) s2 t2); [exact S2|apply same_shuffle|rewrite Hg; reflexivity|rewrite Hg; reflexivity]. }
    assert (Hs3 : s3 = shuffle_state tb (map fst input ++ map fst output) (map snd input ++ map snd output) x y).
    { unfold s3. rewrite Hs2. reflexivity. }
    assert (Hpad : p_pad (p_size s3) s3 = s3) by (rewrite p_pad_eq, Hs3; reflexivity).
    assert (Hph : forall tr, exists s4, p_create_randomized E (p_set_tr s3 tr) = Some (Ok s4) /\ honest s4 /\ p_vec s4 = [] /\ length (p_aL s4) = (2 * (length input - 1))%nat).
    { intros tr1. rewrite Hs3. pose proof (phase2_run E tb tr1 (map fst input) (map fst output) (map snd input ++ map snd output) Hch) as Hr.
      rewrite !map_length in Hr. exact (Hr H2 Hp). }
    destruct (prove_total E pc g dbg rnd s3 Hw) as (pf & trf & Hpf).
    { apply (session_agree E pc g tr0 s3 t3 S3). } { rewrite Hs3. cbn. lia. } { exact Hch. }
    { rewrite Hs3. cbn. lia. }
    { intros tr1. rewrite <- p_pad_eq, Hpad. destruct (Hph tr1) as (s4 & Hr & Hh & Hv & Hl). exists s4. split; [exact Hr|].
      split; [left; rewrite Hs3; reflexivity|]. split; [unfold p_size; rewrite Hv, Hl; exact Hcap|].
      destruct Hh as [_ Hh]. eapply Forall_impl; [|exact Hh]. intros lc [Hlc _]. eapply Forall_impl; [|exact Hlc]. intros u [Hu _]. exact Hu. }
    rewrite Hpf. cbn [res_bind fst]. exists pf. split; [reflexivity|]. intros Hnz dbg' rr. cbn [res_bind].
    eapply (C09_complete_phase2 F V E pc g tr0 s3 t3 dbg rnd pf trf S3 Hw Hc32).
    { intros tr1 s4 Hr. rewrite Hpad in Hr. destruct (Hph tr1) as (s5 & Hr' & Hh & _). rewrite Hr in Hr'. injection Hr' as <-. apply honest_satisfies. exact Hh. }
    { exact Hpf. } { rewrite Hs3. exact Hnz. }
Qed.
Print Assumptions C74_shuffle_complete.

(** ** Soundness *)

(** The challenge that the verifier's callback draws for a statement and a proof
    (specification vocabulary, no code modelled). *)
Definition drawn {F : Field} {V : VSpace F} (E : TrEnv V) (pf : R1CSProof V) (t : VState V) : option F :=
  let tr := append_u64 (v_tr t) "m" (N.of_nat (length (v_V t))) in
  let tr := append_point E (append_point E (append_point E tr "A_I1" (A_I1 pf)) "A_O1" (A_O1 pf)) "S1" (S1 pf) in
  option_map fst (challenge_scalar E (r1cs_2phase_domain_sep tr) "shuffle challenge").

Lemma statement_facts {F : Field} {V : VSpace F} (E : TrEnv V) tr (input output : list V) t : shuffle_statement E tr input output = Some (Ok t) ->
  let k := length input in
  let x := map Committed (seq 0 k) in
  let y := map Committed (seq k k) in
  length output = k /\ v_pad (v_size t) t = t /\ v_size t = 0%nat /\ v_vec t = [] /\ v_V t = input ++ output /\
  forall tr1 t2 w, v_create_randomized E (v_set_tr t tr1) = Some (Ok t2) -> satisfies (F := F) w (v_cs t2) ->
    (k = 1%nat -> w (Committed 1) = w (Committed 0)) /\
    (k <> 1%nat -> exists c, option_map fst (challenge_scalar E (r1cs_2phase_domain_sep tr1) "shuffle challenge") = Some c /\
       prod_at c (map w x) = prod_at c (map w y)).
Proof.
  intros H k x y. unfold shuffle_statement in H. set (tr0 := shuffle_transcript tr (length input)) in H.
  destruct (v_commits_spec E input (v_new tr0)) as [ta Ha]. rewrite Ha in H. cbn [v_new v_cs v_vec v_num v_V v_def v_pend app] in H.
  match type of H with context [v_commits E ?s output] => destruct (v_commits_spec E output s) as [tb Hb]; rewrite Hb in H end.
  cbn [v_cs v_vec v_num v_V v_def v_pend length] in H. fold k in H. fold x in H.
  assert (Hko : length output = k).
  { unfold shuffle_gadget in H. unfold x in H. rewrite !map_length, !seq_length in H. destruct (Nat.eqb_spec k (length output)); [congruence|discriminate H]. }
  rewrite Hko in H. fold y in H. split; [exact Hko|].
  assert (Lx : length x = k) by (unfold x; rewrite map_length, seq_length; reflexivity).
  assert (Ly : length y = k) by (unfold y; rewrite map_length, seq_length; reflexivity).
  destruct (Nat.eq_dec k 1) as [H1|Hn1].
  - assert (Hg : shuffle_gadget (F := F) x y = PConstrain (lc_sub (lc_var (Committed 1)) (lc_var (Committed 0))) (PRet (Ok tt))).
    { unfold x, y. rewrite H1. reflexivity. }
    rewrite Hg in H. cbn [vrun] in H. injection H as <-. split; [reflexivity|]. split; [reflexivity|]. split; [reflexivity|].
    split; [reflexivity|]. intros tr1 t2 w Hr Hs. split; [|intros Hne; contradiction]. intros _.
    unfold v_create_randomized in Hr. cbn in Hr. injection Hr as <-. destruct Hs as (_ & _ & Hs). apply Forall_inv in Hs.
    apply lc_val_diff_inv. exact Hs.
  - assert (Hg : shuffle_gadget (F := F) x y = PSpecify (shuffle_callback x y) (PRet (Ok tt))).
    { unfold shuffle_gadget. rewrite Lx, Ly, Nat.eqb_refl. destruct x as [|x0 [|x1 x']]; [reflexivity|cbn in Lx; lia|reflexivity]. }
    rewrite Hg in H. cbn [vrun] in H. injection H as <-. split; [reflexivity|]. split; [reflexivity|]. split; [reflexivity|].
    split; [reflexivity|]. intros tr1 t2 w Hr Hs. split; [intros He; contradiction|]. intros _.
    unfold v_create_randomized in Hr. cbn [v_set_def v_set_tr v_set_num v_def v_num v_tr v_cs v_vec v_V v_pend app v_run_all shuffle_callback vrun] in Hr.
    destruct (challenge_scalar E (r1cs_2phase_domain_sep tr1) "shuffle challenge") as [[c tr']|]; [|discriminate Hr].
    exists c. split; [reflexivity|].
    match type of Hr with context [vrun E ?p ?s] => change p with (shuffle_body c x y) in Hr; destruct (vrun E (shuffle_body c x y) s) as [[t3 [a|e]]|] eqn:Ev; try discriminate Hr end.
    injection Hr as <-.
    apply (wps_sound E (shuffle_body c x y) w (fun _ => prod_at c (map w x) = prod_at c (map w y)) _ _ _ (fun H1 _ => wps_body w c x y H1) Ev Hs).
Qed.

(** What the circuit says: if [w] satisfies the verifier's circuit for [k] inputs and
    outputs then the committed values are permutations of each other, unless the
    challenge is among [k] values that the committed values determine. *)
Theorem C74_shuffle_circuit : forall (F : Field) (xs ys : list F), length xs = length ys ->
  exists Unlucky : F -> Prop, at_most (length xs) Unlucky /\
  forall (V : VSpace F) (E : TrEnv V) tr (input output : list V) t pf t2 y z x w,
    length input = length xs -> length output = length ys ->
    (forall i, w (Committed i) = nth i (xs ++ ys) 0) ->
    shuffle_statement E tr input output = Some (Ok t) ->
    r1cs_challenges E pf t = Some (t2, y, z, x) ->
    satisfies w (v_cs t2) ->
    (length xs = 1%nat \/ forall c, drawn E pf t = Some c -> ~ Unlucky c) ->
    Permutation xs ys.
Proof.
  intros F xs ys Hl. exists (fun c => prod_at c xs = prod_at c ys /\ ~ Permutation xs ys). split.
  { destruct (perm_decF xs ys) as [Hp|Hp].
    - intros l _ Hf. destruct l as [|a l]; [cbn; lia|]. apply Forall_inv in Hf. destruct Hf as [_ Hf]. contradiction.
    - eapply at_most_weaken; [reflexivity| |exact (few_collisions xs ys Hl Hp)]. intros c [Hc _]. exact Hc. }
  intros V E tr input output t pf t2 y z x w Li Lo Hw Ht Hch Hs Hc.
  destruct (statement_facts E tr input output t Ht) as (_ & Hpad & _ & Hvec & HV & Hsem). rewrite Li in Hsem.
  unfold r1cs_challenges in Hch. rewrite Hpad in Hch.
  match type of Hch with context [v_create_randomized E (v_set_tr t ?a)] => set (tr1 := a) in *; destruct (v_create_randomized E (v_set_tr t tr1)) as [[t2'|]|] eqn:Er; try discriminate Hch end.
  assert (Ht2 : t2' = t2).
  { repeat match type of Hch with opt_bind ?o _ = _ => destruct o as [[? ?]|] || destruct o as [?|]; [cbn [opt_bind] in Hch|discriminate Hch] end.
    apply Some_inj in Hch. congruence. }
  subst t2'. destruct (Hsem tr1 t2 w Er Hs) as [H1 H2].
  assert (Hx : map w (map Committed (seq 0 (length xs))) = xs).
  { rewrite map_map. apply (list_ext_nth _ _ 0); [rewrite map_length, seq_length; reflexivity|]. intros i Hi. rewrite map_length, seq_length in Hi.
    rewrite nth_map_seq by exact Hi. rewrite Hw, app_nth1 by exact Hi. reflexivity. }
  assert (Hy : map w (map Committed (seq (length xs) (length xs))) = ys).
  { rewrite map_map. apply (list_ext_nth _ _ 0); [rewrite map_length, seq_length; exact Hl|]. intros i Hi. rewrite map_length, seq_length in Hi.
    rewrite (nth_indep _ 0 (w (Committed 0))) by (rewrite map_length, seq_length; exact Hi).
    rewrite (map_nth (fun j => w (Committed j)) (seq (length xs) (length xs)) 0%nat i), seq_nth by exact Hi.
    rewrite Hw, app_nth2 by lia. f_equal. lia. }
  destruct (Nat.eq_dec (length xs) 1) as [He|Hne].
  - specialize (H1 He). rewrite !Hw in H1. destruct xs as [|a [|? ?]]; cbn in He; try discriminate. destruct ys as [|b [|? ?]]; cbn in Hl; try discriminate.
    cbn in H1. subst b. apply Permutation_refl.
  - destruct (H2 Hne) as (c & Hd & Hp). rewrite Hx, Hy in Hp. destruct Hc as [He|Hc]; [contradiction|].
    destruct (perm_decF xs ys) as [Hpm|Hpm]; [exact Hpm|]. exfalso. apply (Hc c); [|split; assumption]. unfold drawn. exact Hd.
Qed.
Print Assumptions C74_shuffle_circuit.

Lemma all_to_r1cs {F : Field} {V : VSpace F} (E : TrEnv V) pf t t2 y z u x w us :
  all_challenges E pf t = Some (t2, (y, z, u, x, w), us) -> r1cs_challenges E pf t = Some (t2, y, z, x).
Proof.
  unfold all_challenges, r1cs_challenges. destruct (v_create_randomized E _) as [[t2'|]|]; try discriminate.
  destruct (challenge_scalar E _ "y") as [[y' tr1]|]; [|discriminate]. cbn [opt_bind].
  destruct (challenge_scalar E tr1 "z") as [[z' tr2]|]; [|discriminate]. cbn [opt_bind].
  destruct (append_Ts E _ _ _ tr2) as [tr3|]; [|discriminate]. cbn [opt_bind].
  destruct (challenge_scalar E tr3 "u") as [[u' tr4]|]; [|discriminate]. cbn [opt_bind].
  destruct (challenge_scalar E tr4 "x") as [[x' tr5]|]; [|discriminate]. cbn [opt_bind].
  destruct (challenge_scalar E _ "w") as [[w' tr6]|]; [|discriminate]. cbn [opt_bind].
  destruct (ipp_challenges E _ _ _) as [[[us' tr7]|]|]; [|discriminate|discriminate]. intros H. apply Some_inj in H. congruence.
Qed.

(** For proofs: a prover that knows the coefficients of its points, in particular an
    opening of each commitment, either knows a relation between the generators, or the
    opened outputs are a permutation of the opened inputs.  The challenge of the
    callback has to avoid [k] values fixed by the commitments, the later ones those of
    C66.  (Missing, as in C66: provers without known coefficients, and the probability
    over the random oracle.) *)
Theorem C74_shuffle_sound_partial : forall (F : Field) (V : VSpace F) (N : nat) (ins outs : list (FreeV F (2 + (N + N)))),
  exists Unlucky : F -> Prop, at_most (length ins) Unlucky /\
  forall (t2 : VState (FreeV F (2 + (N + N)))) AI1 AO1 SS1 AI2 AO2 SS2 c,
  v_V t2 = ins ++ outs -> v_vec t2 = [] -> ~ Unlucky c ->
  unless_unlucky N t2 (fun y z T u x tx txb eb w Ls Rs us a b rr =>
    let pf := mkProof AI1 AO1 SS1 AI2 AO2 SS2 T tx txb eb (mkIPP Ls Rs a b) in
    forall (E : TrEnv V) dbg pc g tr Gs Hs t vt,
      let phi := free_eval (generators pc Gs Hs) in
      gens_wf g -> share_G g 0 N = Some Gs -> share_H g 0 N = Some Hs -> length Rs = length Ls ->
      next_power_of_two (v_size t2) = N ->
      shuffle_statement E tr (map phi ins) (map phi outs) = Some (Ok t) ->
      (length ins = 1%nat \/ drawn E (map_proof phi pf) t = Some c) ->
      all_challenges E (map_proof phi pf) t = Some (map_vstate phi t2, (y, z, u, x, w), us) ->
      shuffle_verify E dbg rr (map_proof phi pf) pc g tr (map phi ins) (map phi outs) = Some (Ok tt) ->
      shuffle_tuple E dbg rr (map_proof phi pf) tr (map phi ins) (map phi outs) = Some (Ok vt) ->
      let c := combined N (vt_scalars vt) (all_points t2 pf) (vt_fixed vt) in
      (c <> v0 /\ free_eval (generators pc Gs Hs) c = v0) \/
      Permutation (map (on_B N) ins) (map (on_B N) outs)).
Proof.
  intros F V N ins outs. destruct (Nat.eq_dec (length ins) (length outs)) as [Hl|Hl].
  2:{ exists (fun _ => False). split.
      { intros l _ Hf. destruct l as [|a l]; [cbn; lia|]. apply Forall_inv in Hf. contradiction. }
      intros t2 AI1 AO1 SS1 AI2 AO2 SS2 c _ Hv _.
      eapply unlucky_mono; [|apply (C66_sound_even_partial F V N t2 0 AI1 AO1 SS1 AI2 AO2 SS2); rewrite Hv; [reflexivity|intros cd i []]].
      cbv beta zeta. intros y z T u x tx txb eb w Ls Rs us a b rr _ E dbg pc g tr Gs Hs t vt _ _ _ _ _ Ht.
      exfalso. destruct (statement_facts E tr _ _ t Ht) as (Hk & _). rewrite !map_length in Hk. congruence. }
  assert (Hl' : length (map (on_B N) ins) = length (map (on_B N) outs)) by (rewrite !map_length; exact Hl).
  destruct (C74_shuffle_circuit F _ _ Hl') as (Bad & Hb & Hsem). rewrite map_length in Hb, Hsem. exists Bad. split; [exact Hb|].
  intros t2 AI1 AO1 SS1 AI2 AO2 SS2 c HV Hv Hbad.
  eapply unlucky_mono; [|apply (C66_sound_even_partial F V N t2 0 AI1 AO1 SS1 AI2 AO2 SS2); rewrite Hv; [reflexivity|intros cd i []]].
  cbv beta zeta. intros y z T u x tx txb eb w Ls Rs us a b rr Hg E dbg pc g tr Gs Hs t vt Hw HGs HHs HR HN Ht Hd Hch Hver Hvt.
  set (phi := free_eval (generators pc Gs Hs)) in *.
  destruct (statement_facts E tr _ _ t Ht) as (_ & _ & Hsz & _).
  unfold shuffle_verify in Hver. unfold shuffle_tuple in Hvt. rewrite Ht in Hver, Hvt. cbn [res_bind] in Hver, Hvt.
  destruct (Hg E dbg pc g t Gs Hs vt Hw HGs HHs Hsz HR HN Hch Hver Hvt) as [Hrel|Hsat]; [left; exact Hrel|right].
  pose proof (all_to_r1cs E _ _ _ _ _ _ _ _ _ Hch) as Hch'.
  eapply (Hsem V E tr (map phi ins) (map phi outs) t); [apply map_length|rewrite !map_length; reflexivity| |exact Ht|exact Hch'|exact Hsat|].
  - intros i. cbn [extracted]. rewrite HV, <- map_app. destruct (Nat.lt_ge_cases i (length (ins ++ outs))) as [Hi|Hi].
    + rewrite (nth_indep _ 0 (on_B N v0)) by (rewrite map_length; exact Hi). rewrite map_nth. reflexivity.
    + rewrite !nth_overflow by (rewrite ?map_length; exact Hi). unfold on_B. cbn. reflexivity.
  - destruct Hd as [Hd|Hd]; [left; exact Hd|right]. intros c' Hc'. rewrite Hd in Hc'. injection Hc' as <-. exact Hbad.
Qed.
Print Assumptions C74_shuffle_sound_partial.

(** ** Edge cases *)

(** Without inputs the callback indexes out of range: proving panics, and no proof of an
    empty shuffle is accepted. *)
Theorem C74_empty_panics : forall (F : Field) (V : VSpace F) (E : TrEnv V) pc g tr dbg rnd,
  shuffle_prove E dbg rnd pc g tr [] [] = None /\
  forall rr pf, shuffle_verify E dbg rr pf pc g tr [] [] <> Some (Ok tt).
Proof.
  intros F V E pc g tr dbg rnd. split.
  - unfold shuffle_prove. cbn [length p_commits]. cbn [shuffle_gadget length Nat.eqb prun].
    match goal with |- context [r1cs_prove E dbg rnd pc g ?s] => set (s0 := s) end.
    unfold r1cs_prove. rewrite p_pad_eq. change (padded s0) with s0. change (p_size (p_set_tr s0 _)) with 0%nat. cbn [Nat.ltb Nat.leb].
    destruct (share_G g 0 0) as [G|]; [|reflexivity]. cbn [opt_bind].
    destruct (share_H g 0 0) as [H|]; [|reflexivity]. cbn [opt_bind].
    match goal with |- context [p_create_randomized E ?s] => assert (Hr : p_create_randomized E s = None) end.
    { unfold p_create_randomized. cbn [s0 p_new p_set_tr p_set_pend p_set_def p_def p_tr app p_run_all shuffle_callback prun].
      destruct (challenge_scalar E _ _) as [[c tr']|]; reflexivity. }
    rewrite Hr. reflexivity.
  - intros rr pf. unfold shuffle_verify, shuffle_statement. cbn [length v_commits]. cbn [shuffle_gadget length Nat.eqb vrun res_bind].
    match goal with |- context [r1cs_verify E dbg rr pf pc g ?s] => set (t0 := s) end.
    unfold r1cs_verify, v_scalars_and_points. change (v_pad (v_size t0) t0) with t0.
    match goal with |- context [guard ?b _] => destruct b; cbn [guard]; [|discriminate] end.
    destruct (validate E (v_tr _) "A_I1" (A_I1 pf)) as [[tr1|]|]; cbn [res_bind]; try discriminate.
    destruct (validate E tr1 "A_O1" (A_O1 pf)) as [[tr2|]|]; cbn [res_bind]; try discriminate.
    destruct (validate E tr2 "S1" (S1 pf)) as [[tr3|]|]; cbn [res_bind]; try discriminate.
    match goal with |- context [v_create_randomized E ?s] => assert (Hr : v_create_randomized E s = None) end.
    { unfold v_create_randomized. cbn [t0 v_new v_set_tr v_set_num v_set_def v_def v_tr v_num app v_run_all shuffle_callback vrun].
      destruct (challenge_scalar E _ _) as [[c tr']|]; reflexivity. }
    rewrite Hr. discriminate.
Qed.
Print Assumptions C74_empty_panics.

(** Lists of different lengths violate the assertion. *)
Theorem C74_lengths_panic : forall (F : Field) (V : VSpace F) (E : TrEnv V) pc g tr dbg rnd (input output : list (F * F)) (cin cout : list V),
  (length input <> length output -> shuffle_prove E dbg rnd pc g tr input output = None) /\
  (length cin <> length cout -> forall rr pf, shuffle_verify E dbg rr pf pc g tr cin cout = None).
Proof.
  intros F V E pc g tr dbg rnd input output cin cout. split; intros Hl.
  - unfold shuffle_prove. destruct (p_commits_spec E pc input (p_new (shuffle_transcript tr (length input)))) as [ta Ha]. rewrite Ha.
    match goal with |- context [p_commits E pc ?s output] => destruct (p_commits_spec E pc output s) as [tb Hb]; rewrite Hb end.
    unfold shuffle_gadget. rewrite !map_length, !seq_length. destruct (Nat.eqb_spec (length input) (length output)); [contradiction|reflexivity].
  - intros rr pf. unfold shuffle_verify, shuffle_statement. destruct (v_commits_spec E cin (v_new (shuffle_transcript tr (length cin)))) as [ta Ha]. rewrite Ha.
    match goal with |- context [v_commits E ?s cout] => destruct (v_commits_spec E cout s) as [tb Hb]; rewrite Hb end.
    unfold shuffle_gadget. rewrite !map_length, !seq_length. destruct (Nat.eqb_spec (length cin) (length cout)); [contradiction|reflexivity].
Qed.
Print Assumptions C74_lengths_panic.

(** ** Examples *)

(** Three values and their blindings, permuted; all challenges are 5. *)
(* test data, no code modelled *)
Definition sh_in : list (F101 * F101) := [(z101 3, z101 8); (z101 9, z101 4); (z101 7, z101 2)].
(* test data or vocabulary of statements, no code modelled *)
Definition sh_out : list (F101 * F101) := [(z101 7, z101 6); (z101 3, z101 5); (z101 9, z101 1)].
(* test data or vocabulary of statements, no code modelled *)
Definition sh_env : TrEnv (RegV F101) := const_env (RegV F101) (z101 5).
Example C74_complete_demo : gens_wf g101 /\ (gens_capacity g101 < 2 ^ 32)%nat /\
  (forall tr lb, exists c tr', challenge_scalar sh_env tr lb = Some (c, tr') /\ c <> 0) /\ sh_in <> [] /\
  Permutation (map fst sh_in) (map fst sh_out) /\ (next_power_of_two (2 * (length sh_in - 1)) <= gens_capacity g101)%nat /\
  exists pf cin cout, shuffle_prove sh_env true rnd101 pc101 g101 [] sh_in sh_out = Some (Ok (pf, cin, cout)) /\
    Forall (fun P => P <> v0) (validated_points (op_degree_of 0) pf).
Proof.
  split; [apply gens_wf_new|]. split; [apply (Nat.lt_le_trans _ (2 ^ 8)); [apply Nat.ltb_lt; vm_compute; reflexivity|apply Nat.pow_le_mono_r; lia]|].
  split; [intros tr lb; apply const_env_good; apply feqb_false; vm_compute; reflexivity|]. split; [discriminate|].
  split; [cbn; apply (Permutation_trans (perm_skip _ (perm_swap _ _ _)) (perm_swap _ _ _))|]. split; [apply Nat.leb_le; vm_compute; reflexivity|].
  assert (H : match shuffle_prove sh_env true rnd101 pc101 g101 [] sh_in sh_out with
    | Some (Ok (pf, _, _)) => forallb (fun P => negb (veqb P v0)) (validated_points (op_degree_of 0) pf) | _ => false end = true) by (vm_compute; reflexivity).
  destruct (shuffle_prove _ _ _ _ _ _ _ _) as [[[[pf cin] cout]|]|]; try discriminate H. exists pf, cin, cout. split; [reflexivity|].
  apply Forall_forall. intros P HP. rewrite forallb_forall in H. specialize (H P HP). intros ->. rewrite veqb_refl in H. discriminate.
Qed.
(** With challenges from the transcript: the shuffle is accepted, another list is not. *)
(* test data, no code modelled *)
Definition sh_accepts (output : list (F101 * F101)) : bool :=
  match shuffle_prove E101 true rnd101 pc101 g101 [] sh_in output with
  | Some (Ok (pf, cin, cout)) => match shuffle_verify E101 true (z101 7) pf pc101 g101 [] cin cout with Some (Ok _) => true | _ => false end
  | _ => false
  end.
Example C74_accept_test : (sh_accepts sh_out, sh_accepts [(z101 7, z101 6); (z101 3, z101 5); (z101 8, z101 1)],
  sh_accepts [(z101 7, z101 6); (z101 3, z101 5); (z101 3, z101 1)]) = (true, false, false).
Proof. vm_compute. reflexivity. Qed.

(* test helper, no code modelled *)
Fixpoint list_same {A} (eqb : A -> A -> bool) (l l' : list A) : bool :=
  match l, l' with [], [] => true | x :: l, y :: l' => eqb x y && list_same eqb l l' | _, _ => false end.
Lemma list_same_true {A} (eqb : A -> A -> bool) : (forall x y, eqb x y = true -> x = y) -> forall l l', list_same eqb l l' = true -> l = l'.
Proof.
  intros He. induction l as [|x l IH]; intros [|y l'] H; try discriminate; [reflexivity|]. cbn in H. apply andb_prop in H as [H1 H2].
  rewrite (He _ _ H1), (IH _ H2). reflexivity.
Qed.
(** The honest prover's proof for a swap of two values meets all hypotheses of
    [C74_shuffle_sound_partial] except that the challenges are lucky; the prover's
    coefficients are its points. *)
(* test data, no code modelled *)
Definition sw_run := shuffle_prove E6 true rnd6 pc6 g6 [] [(z101 3, z101 8); (z101 9, z101 4)] [(z101 9, z101 6); (z101 3, z101 5)].
Example C74_sound_demo : exists pf ins outs t t2 c y z u x w us, sw_run = Some (Ok (pf, ins, outs)) /\
  let phi := free_eval (V := W6) gens6 in
  gens_wf g6 /\ v_V t2 = ins ++ outs /\ v_vec t2 = [] /\ length (ipp_R (pipp pf)) = length (ipp_L (pipp pf)) /\
  next_power_of_two (v_size t2) = 2%nat /\ shuffle_statement E6 [] (map phi ins) (map phi outs) = Some (Ok t) /\
  drawn E6 (map_proof phi pf) t = Some c /\
  all_challenges E6 (map_proof phi pf) t = Some (map_vstate phi t2, (y, z, u, x, w), us) /\
  shuffle_verify E6 true (z101 7) (map_proof phi pf) pc6 g6 [] (map phi ins) (map phi outs) = Some (Ok tt) /\
  map (on_B 2) ins = [z101 3; z101 9].
Proof.
  assert (H : match sw_run with Some (Ok (pf, ins, outs)) => match shuffle_statement E6 [] ins outs with Some (Ok t) => match all_challenges E6 pf t, drawn E6 pf t with
      | Some (t2, (y, z, u, x, w), us), Some c => (next_power_of_two (v_size t2) =? 2)%nat && (length (ipp_R (pipp pf)) =? length (ipp_L (pipp pf)))%nat &&
          (length (v_vec t2) =? 0)%nat && list_same veqb (v_V t2) (ins ++ outs) && list_same feqb (map (on_B 2) ins) [z101 3; z101 9] &&
          match shuffle_verify E6 true (z101 7) pf pc6 g6 [] ins outs with Some (Ok tt) => true | _ => false end
      | _, _ => false end | _ => false end | _ => false end = true) by (vm_compute; reflexivity).
  destruct sw_run as [[[[pf ins] outs]|]|]; try discriminate H.
  destruct (shuffle_statement E6 [] ins outs) as [[t|]|] eqn:Es; try discriminate H.
  destruct (all_challenges E6 pf t) as [[[t2 [[[[y z] u] x] w]] us]|] eqn:Ec; [|discriminate H].
  destruct (drawn E6 pf t) as [c|] eqn:Ed; [|discriminate H].
  apply andb_prop in H as [H H6]. apply andb_prop in H as [H H5]. apply andb_prop in H as [H H4]. apply andb_prop in H as [H H3]. apply andb_prop in H as [H1 H2].
  apply Nat.eqb_eq in H1, H2, H3. apply (list_same_true _ (fun a b => proj1 (veqb_true a b))) in H4. apply (list_same_true _ (fun a b => proj1 (feqb_true a b))) in H5.
  assert (Hl : forall l : list W6, map (free_eval (V := W6) gens6) l = l) by (intros l; rewrite <- (map_id l) at 2; apply map_ext; apply gens6_id).
  assert (Hpf : map_proof (free_eval (V := W6) gens6) pf = pf).
  { destruct pf as [p1 p2 p3 p4 p5 p6 T tx txb eb [Ls Rs a b]]. unfold map_proof. cbn [A_I1 A_O1 S1 A_I2 A_O2 S2 pT pt_x pt_x_blinding pe_blinding pipp ipp_L ipp_R ipp_a ipp_b].
    rewrite !gens6_id, !Hl. reflexivity. }
  assert (Ht : map_vstate (free_eval (V := W6) gens6) t2 = t2).
  { destruct t2 as [q1 q2 q3 q4 q5 q6 q7]. unfold map_vstate. cbn [v_tr v_cs v_vec v_num v_V v_def v_pend]. rewrite Hl. f_equal.
    rewrite <- (map_id q3) at 2. apply map_ext. intros [c' d]. cbn [fst snd]. rewrite gens6_id. reflexivity. }
  exists pf, ins, outs, t, t2, c, y, z, u, x, w, us. split; [reflexivity|]. cbv zeta. rewrite Hpf, Ht, !Hl.
  split; [apply gens_wf6|]. split; [exact H4|]. split; [apply length_zero_iff_nil; exact H3|]. split; [exact H2|]. split; [exact H1|].
  split; [exact Es|]. split; [exact Ed|]. split; [exact Ec|]. split; [|exact H5].
  destruct (shuffle_verify _ _ _ _ _ _ _ _ _) as [[[]|]|]; try discriminate H6. reflexivity.
Qed.
