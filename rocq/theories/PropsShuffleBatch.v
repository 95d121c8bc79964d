(** * Batches of shuffles: C85 *)
From Verif Require Import ShuffleBatch ShuffleProofs PropsShuffle CSProofs CSLogic CSMore UtilProofs R1CS R1CSSpec R1CSCore R1CSProofs R1CSMain R1CSVerif R1CSMore R1CSMisc R1CSTotal R1CSBatch AccProofs Lockstep SoundSpec Toy PropsR1CS.
From Coq Require Import Permutation.
Local Open Scope F_scope.

(** ** The size of a shuffle circuit *)
Section Size.
  Context {F : Field} {V : VSpace F}.
  Variable E : TrEnv V.
  Lemma vrun_pbind {A B} (p : Prog F A) (f : A -> Prog F B) s : vrun E (pbind p f) s = match vrun E p s with Some (s', a) => vrun E (f a) s' | None => None end.
  Proof.
    revert s. induction p as [A a0|A|A l r k IH|A x k IH|A x k IH|A c k IH|A lb m k IH|A k IH|A lb k IH|A cb _ k IH]; intros s; cbn [pbind vrun]; auto.
    - destruct (v_multiply s l r) as [s' v]; auto.
    - destruct (v_allocate s x) as [s' v]; auto.
    - destruct (v_allocate_multiplier s x) as [s' v]; auto.
    - destruct (challenge_scalar E (v_tr s) lb) as [[c tr]|]; auto.
  Qed.
  Lemma fold_num z : forall xs prev (s s' : VState V) o, vrun E (shuffle_fold z prev xs) s = Some (s', o) -> v_num s' = (v_num s + length xs)%nat /\ v_vec s' = v_vec s.
  Proof.
    induction xs as [|x xs IH]; intros prev s s' o H; cbn [shuffle_fold vrun] in H; [injection H as <- _; cbn; split; [lia|reflexivity]|].
    unfold v_multiply in H. apply IH in H as [H1 H2]. rewrite H1, H2. cbn. split; [lia|reflexivity].
  Qed.
  Lemma product_num z xs (s s' : VState V) o : vrun E (shuffle_product z xs) s = Some (s', o) -> v_num s' = (v_num s + (length xs - 1))%nat /\ v_vec s' = v_vec s.
  Proof.
    unfold shuffle_product. intros H. rewrite <- (rev_length xs). destruct (rev xs) as [|a [|b r]]; try discriminate. cbn [vrun] in H.
    unfold v_multiply in H. apply fold_num in H as [H1 H2]. rewrite H1, H2. cbn. split; [lia|reflexivity].
  Qed.
  Lemma body_num z x y (s s' : VState V) a : vrun E (shuffle_body z x y) s = Some (s', a) -> v_num s' = (v_num s + (length x - 1) + (length y - 1))%nat /\ v_vec s' = v_vec s.
  Proof.
    unfold shuffle_body. rewrite vrun_pbind. destruct (vrun E (shuffle_product z x) s) as [[s1 ox]|] eqn:E1; [|discriminate].
    rewrite vrun_pbind. destruct (vrun E (shuffle_product z y) s1) as [[s2 oy]|] eqn:E2; [|discriminate]. cbn [vrun]. intros H.
    apply Some_inj in H. injection H as <- _. apply product_num in E1 as [N1 K1]. apply product_num in E2 as [N2 K2]. cbn [v_constrain v_num v_vec]. split; [lia|congruence].
  Qed.
  Lemma statement_size tr (input output : list V) t tr1 t2 : shuffle_statement E tr input output = Some (Ok t) ->
    v_create_randomized E (v_set_tr (v_pad (v_size t) t) tr1) = Some (Ok t2) -> v_size t2 = (2 * (length input - 1))%nat.
  Proof.
    intros H. unfold shuffle_statement in H. set (k := length input) in *. set (tr0 := shuffle_transcript tr k) in H.
    destruct (v_commits_spec E input (v_new tr0)) as [ta Ha]. rewrite Ha in H. cbn [v_new v_cs v_vec v_num v_V v_def v_pend app] in H.
    match type of H with context [v_commits E ?s output] => destruct (v_commits_spec E output s) as [tb Hb]; rewrite Hb in H end.
    cbn [v_cs v_vec v_num v_V v_def v_pend length] in H. fold k in H.
    assert (Hko : length output = k).
    { unfold shuffle_gadget in H. rewrite !map_length, !seq_length in H. destruct (Nat.eqb_spec k (length output)); [congruence|discriminate H]. }
    rewrite Hko in H. set (x := map Committed (seq 0 k)) in *. set (y := map Committed (seq k k)) in *.
    assert (Lx : length x = k) by (unfold x; rewrite map_length, seq_length; reflexivity).
    assert (Ly : length y = k) by (unfold y; rewrite map_length, seq_length; reflexivity).
    destruct (Nat.eq_dec k 1) as [H1|Hn1].
    - assert (Hg : shuffle_gadget (F := F) x y = PConstrain (lc_sub (lc_var (Committed 1)) (lc_var (Committed 0))) (PRet (Ok tt))).
      { unfold x, y. rewrite H1. reflexivity. }
      rewrite Hg in H. cbn [vrun] in H. injection H as <-. intros Hr. unfold v_create_randomized in Hr. cbn in Hr. injection Hr as <-. rewrite H1. reflexivity.
    - assert (Hg : shuffle_gadget (F := F) x y = PSpecify (shuffle_callback x y) (PRet (Ok tt))).
      { unfold shuffle_gadget. rewrite Lx, Ly, Nat.eqb_refl. destruct x as [|x0 [|x1 x']]; [reflexivity|cbn in Lx; lia|reflexivity]. }
      rewrite Hg in H. cbn [vrun] in H. injection H as <-. intros Hr.
      match type of Hr with context [v_pad (v_size ?s) ?s] => change (v_pad (v_size s) s) with s in Hr end.
      unfold v_create_randomized in Hr. cbn [v_set_def v_set_tr v_set_num v_def v_num v_tr v_cs v_vec v_V v_pend app v_run_all shuffle_callback vrun] in Hr.
      destruct (challenge_scalar E (r1cs_2phase_domain_sep tr1) "shuffle challenge") as [[c tr']|]; [|discriminate Hr].
      match type of Hr with context [vrun E ?p ?s] => change p with (shuffle_body c x y) in Hr; destruct (vrun E (shuffle_body c x y) s) as [[t3 [a|e]]|] eqn:Ev; try discriminate Hr end.
      injection Hr as <-. apply body_num in Ev as [N1 N2]. cbn [v_num v_vec] in N1, N2. unfold v_size. rewrite N2, N1, Lx, Ly. cbn. lia.
  Qed.
  (** The padded size of a shuffle of [k] values (vocabulary of statements, no code modelled). *)
  Definition shuffle_pad (k : nat) : nat := next_power_of_two (2 * (k - 1)).
  Lemma shuffle_tuple_sized dbg rr pf tr (input output : list V) vt : shuffle_tuple E dbg rr pf tr input output = Some (Ok vt) ->
    length (ipp_R (pipp pf)) = length (ipp_L (pipp pf)) -> well_sized (shuffle_pad (length input)) vt.
  Proof.
    intros Hv HR. unfold shuffle_tuple in Hv. destruct (shuffle_statement E tr input output) as [[t|]|] eqn:Es; try discriminate Hv. cbn [res_bind] in Hv.
    destruct (v_facts_of_scalars _ _ _ _ _ _ Hv) as (t2 & y & z & u & x & w & fl & us & Hf).
    pose proof (v_scalars_of_facts E dbg rr pf t t2 y z u x w fl us Hf) as Hv'. rewrite Hv in Hv'. apply Some_inj in Hv'.
    assert (vt = run_tuple rr pf t2 (v_size t) (v_size t2) (op_degree_of (length (v_vec t))) y u x w fl us) by congruence. subst vt. split.
    - apply (v_facts_aligned E dbg rr pf t t2 y z u x w fl us Hf HR).
    - rewrite (v_facts_fixed_length E dbg rr pf t t2 y z u x w fl us Hf), (statement_size _ _ _ _ _ _ Es (vf_rand _ _ _ _ _ _ _ _ _ _ _ _ Hf)). reflexivity.
  Qed.
  Lemma shuffle_verify_tuple dbg rr pf pc (g : BPGens V) tr (input output : list V) : length (ipp_R (pipp pf)) = length (ipp_L (pipp pf)) ->
    (shuffle_verify E dbg rr pf pc g tr input output = Some (Ok tt) <-> exists vt, unwrap (shuffle_tuple E dbg rr pf tr input output) = Some vt /\ checks pc g (shuffle_pad (length input)) vt).
  Proof.
    intros HR.
    assert (Hs : forall vt, shuffle_tuple E dbg rr pf tr input output = Some (Ok vt) -> (shuffle_verify E dbg rr pf pc g tr input output = Some (Ok tt) <-> checks pc g (shuffle_pad (length input)) vt)).
    { intros vt Hv. destruct (shuffle_tuple_sized _ _ _ _ _ _ _ Hv HR) as [_ Hl]. unfold shuffle_verify, shuffle_tuple in *. destruct (shuffle_statement E tr input output) as [[t|]|]; try discriminate Hv. cbn [res_bind] in *.
      unfold r1cs_verify. rewrite Hv. cbn [res_bind]. rewrite Hl. replace (2 + 2 * shuffle_pad (length input) - 2)%nat with (shuffle_pad (length input) * 2)%nat by lia. rewrite Nat.div_mul by lia. reflexivity. }
    split.
    - intros H. destruct (shuffle_tuple E dbg rr pf tr input output) as [[vt|e]|] eqn:Ht.
      + exists vt. split; [reflexivity|]. apply (Hs vt eq_refl). exact H.
      + exfalso. unfold shuffle_verify, shuffle_tuple in *. destruct (shuffle_statement E tr input output) as [[t|]|]; cbn [res_bind] in *; try discriminate. unfold r1cs_verify in H. rewrite Ht in H. discriminate H.
      + exfalso. unfold shuffle_verify, shuffle_tuple in *. destruct (shuffle_statement E tr input output) as [[t|]|]; cbn [res_bind] in *; try discriminate. unfold r1cs_verify in H. rewrite Ht in H. discriminate H.
    - intros (vt & Ht & Hc). destruct (shuffle_tuple E dbg rr pf tr input output) as [[vt'|e]|]; try discriminate Ht. cbn in Ht. apply Some_inj in Ht. subst vt'. apply (Hs vt eq_refl). exact Hc.
  Qed.
End Size.

(** ** Batches *)
(** The verifier of a single shuffle accepts the job (vocabulary of statements, no code
    modelled). *)
Definition shuffle_valid {F : Field} {V : VSpace F} (E : TrEnv V) dbg pc (g : BPGens V) tr (job : R1CSProof V * list V * list V * F) : Prop :=
  let '(pf, cin, cout, rr) := job in shuffle_verify E dbg rr pf pc g tr cin cout = Some (Ok tt).
(** The job is about [k] inputs, and the proof has as many R as L points (vocabulary of
    statements, no code modelled). *)
Definition shuffle_shape {F : Field} {V : VSpace F} (k : nat) (job : R1CSProof V * list V * list V * F) : Prop :=
  let '(pf, cin, cout, rr) := job in length cin = k /\ length (ipp_R (pipp pf)) = length (ipp_L (pipp pf)).

Lemma shuffle_jobs {F : Field} {V : VSpace F} (E : TrEnv V) dbg pc (g : BPGens V) tr k : forall jobs, Forall (shuffle_shape k) jobs ->
  match all_some (map (fun '(pf, cin, cout, rr) => unwrap (shuffle_tuple E dbg rr pf tr cin cout)) jobs) with
  | Some vts => length vts = length jobs /\ Forall (well_sized (shuffle_pad k)) vts /\ (Forall (shuffle_valid E dbg pc g tr) jobs <-> Forall (checks pc g (shuffle_pad k)) vts)
  | None => ~ Forall (shuffle_valid E dbg pc g tr) jobs
  end.
Proof.
  induction jobs as [|[[[pf cin] cout] rr] jobs IH]; intros Hs; cbn [map all_some].
  - split; [reflexivity|]. split; [constructor|]. split; constructor.
  - apply Forall_cons_iff in Hs as [[Hk HR] Hs]. specialize (IH Hs). pose proof (shuffle_verify_tuple E dbg rr pf pc g tr cin cout HR) as Hv. rewrite Hk in Hv.
    destruct (unwrap (shuffle_tuple E dbg rr pf tr cin cout)) as [vt|] eqn:Ht; cbn [opt_bind].
    2: { intros H. apply Forall_cons_iff in H as [H _]. apply Hv in H as (vt & H & _). discriminate H. }
    destruct (all_some _) as [vts|] in IH |- *; cbn [opt_bind].
    2: { intros H. apply Forall_cons_iff in H as [_ H]. exact (IH H). }
    destruct IH as (IH1 & IH2 & IH3). split; [cbn [length]; congruence|]. split.
    + constructor; [|exact IH2]. destruct (shuffle_tuple E dbg rr pf tr cin cout) as [[vt'|]|] eqn:Ht'; try discriminate Ht. cbn in Ht. apply Some_inj in Ht. subst vt'. rewrite <- Hk. eapply shuffle_tuple_sized; eassumption.
    + rewrite !Forall_cons_iff, <- IH3. cbn [shuffle_valid]. rewrite Hv. split; intros [A B]; (split; [|exact B]); [destruct A as (vt' & A1 & A2); apply Some_inj in A1; subst vt'; exact A2|exists vt; auto].
Qed.

(** Shuffles of equally many values, each accepted on its own, are accepted together,
    whatever the weights are. *)
Theorem C85_batch_complete : forall (F : Field) (V : VSpace F) (E : TrEnv V) dbg pc (g : BPGens V) tr k (jobs : list (R1CSProof V * list V * list V * F)) ws,
  gens_wf g -> Forall (shuffle_shape k) jobs -> length jobs = S (length ws) ->
  Forall (shuffle_valid E dbg pc g tr) jobs -> shuffles_verify E dbg pc g tr jobs ws = Some tt.
Proof.
  intros F V E dbg pc g tr k jobs ws Hw Hs Hl Hv. unfold shuffles_verify. pose proof (shuffle_jobs E dbg pc g tr k jobs Hs) as HJ.
  destruct (all_some _) as [vts|]; [|contradiction]. cbn [opt_bind]. destruct HJ as (H1 & H2 & H3). apply H3 in Hv. destruct vts as [|vt vts]; [cbn in H1; lia|]. cbn [length] in H1.
  rewrite (batch_complete pc g (shuffle_pad k)); [reflexivity|exact Hw| |exact H2|lia|exact Hv].
  apply Forall_cons_iff in Hv as [Hv _]. unfold checks, mega_check in Hv. destruct (Nat.ltb_spec (gens_capacity g) (shuffle_pad k)); [discriminate Hv|auto].
Qed.

(** A batch with a shuffle that is not accepted on its own is refused, except for at most one
    value of one of the weights, given all the others. *)
Theorem C85_batch_sound : forall (F : Field) (V : VSpace F) (E : TrEnv V) dbg pc (g : BPGens V) tr k (jobs : list (R1CSProof V * list V * list V * F)),
  gens_wf g -> Forall (shuffle_shape k) jobs -> (next_power_of_two (2 * (k - 1)) <= gens_capacity g)%nat ->
  ~ Forall (shuffle_valid E dbg pc g tr) jobs ->
  let accepts ws := shuffles_verify E dbg pc g tr jobs ws = Some tt in
  (forall ws, length jobs = S (length ws) -> ~ accepts ws) \/
  (exists j, (S j < length jobs)%nat /\ forall ws, length jobs = S (length ws) -> forall c c', accepts (upd ws j (fun _ => c)) -> accepts (upd ws j (fun _ => c')) -> c = c').
Proof.
  intros F V E dbg pc g tr k jobs Hw Hs Hc Hv accepts. unfold accepts, shuffles_verify. pose proof (shuffle_jobs E dbg pc g tr k jobs Hs) as HJ.
  destruct (all_some _) as [vts|]; [|left; intros ws _ H; discriminate H]. cbn [opt_bind]. destruct HJ as (H1 & H2 & H3). rewrite H3 in Hv.
  destruct vts as [|vt vts]; [exfalso; apply Hv; constructor|]. cbn [length] in H1.
  assert (Hu : forall o : option (Res unit), unwrap o = Some tt -> o = Some (Ok tt)) by (intros [[[]|]|] H; try discriminate H; reflexivity).
  destruct (batch_sound pc g (shuffle_pad k) vt vts Hw Hc H2 Hv) as [R|(j & Hj & R)].
  - left. intros ws Hl H. apply (R ws); [lia|apply Hu; exact H].
  - right. exists j. split; [lia|]. intros ws Hl c c' A B. apply (R ws); [lia|apply Hu; exact A|apply Hu; exact B].
Qed.
Print Assumptions C85_batch_complete.
Print Assumptions C85_batch_sound.

(** ** The helpers and benches *)
Lemma gens_cap_new {F : Field} {V : VSpace F} (chain : bytes -> nat -> V) cap k : gens_capacity (bp_new chain cap k) = cap.
Proof. unfold bp_new, increase_capacity. cbn [gens_capacity]. destruct (Nat.leb_spec cap 0); [cbn [gens_capacity]; lia|reflexivity]. Qed.
Lemma pad_le k m : (2 * (k - 1) <= 2 ^ m)%nat -> (shuffle_pad k <= 2 ^ m)%nat.
Proof. apply next_power_of_two_least. Qed.
Lemma unwrap_tt (o : option (Res unit)) : unwrap o = Some tt <-> o = Some (Ok tt).
Proof. destruct o as [[[]|]|]; cbn; split; congruence. Qed.

(** No validated point of the proof is the identity (vocabulary of statements, no code
    modelled). *)
Definition regular {F : Field} {V : VSpace F} (p : R1CSProof V * list V * list V) : Prop :=
  Forall (fun P => P <> v0) (validated_points (op_degree_of 0) (fst (fst p))).

(** The helper makes a proof for every shuffle of at least one value, and ends without a panic
    exactly if the verifier accepts that proof, which it does. *)
Theorem C85_helper : forall (F : Field) (V : VSpace F) (E : TrEnv V) chain dbg rnd rr pc tr (input output : list (F * F)),
  (forall tr lb, exists c tr', challenge_scalar E tr lb = Some (c, tr') /\ c <> 0) -> (next_power_of_two (2 * length input) < 2 ^ 32)%nat ->
  input <> [] -> Permutation (map fst input) (map fst output) ->
  exists p, shuffle_prove E dbg rnd pc (kshuffle_gens chain (length input)) tr input output = Some (Ok p) /\
    (kshuffle_helper E chain dbg rnd rr pc tr input output = Some tt <-> shuffle_valid E dbg pc (kshuffle_gens chain (length input)) tr (p, rr)) /\
    (regular p -> kshuffle_helper E chain dbg rnd rr pc tr input output = Some tt).
Proof.
  intros F V E chain dbg rnd rr pc tr input output Hch H32 Hne Hp.
  destruct (C74_shuffle_complete F V E pc (kshuffle_gens chain (length input)) tr dbg rnd input output) as (pf & P & K); [apply gens_wf_new|unfold kshuffle_gens; rewrite gens_cap_new; exact H32|exact Hch|exact Hne|exact Hp| |].
  { unfold kshuffle_gens. rewrite gens_cap_new. apply pad_le. pose proof (next_power_of_two_ge (2 * length input)) as G. unfold next_power_of_two in G. lia. }
  cbv zeta in P, K. eexists. split; [exact P|]. unfold kshuffle_helper, kshuffle_run. rewrite P. cbn [unwrap opt_bind shuffle_valid]. split; [apply unwrap_tt|]. intros R. rewrite (K R). reflexivity.
Qed.

(** The generators of the benches suffice for every shuffle of up to 1025 values. *)
Theorem C85_bench : forall (F : Field) (V : VSpace F) (E : TrEnv V) chain dbg rnd rr pc tr (input output : list (F * F)),
  (forall tr lb, exists c tr', challenge_scalar E tr lb = Some (c, tr') /\ c <> 0) -> (length input <= S (2 ^ 10))%nat ->
  input <> [] -> Permutation (map fst input) (map fst output) ->
  exists p, shuffle_prove E dbg rnd pc (kshuffle_bench_gens chain) tr input output = Some (Ok p) /\
    (kshuffle_run E dbg rnd rr pc (kshuffle_bench_gens chain) tr input output = Some tt <-> shuffle_valid E dbg pc (kshuffle_bench_gens chain) tr (p, rr)) /\
    (regular p -> kshuffle_run E dbg rnd rr pc (kshuffle_bench_gens chain) tr input output = Some tt).
Proof.
  intros F V E chain dbg rnd rr pc tr input output Hch Hk Hne Hp.
  assert (E11 : (2 * 2 ^ 10 = 2 ^ 11)%nat) by reflexivity.
  destruct (C74_shuffle_complete F V E pc (kshuffle_bench_gens chain) tr dbg rnd input output) as (pf & P & K); [apply gens_wf_new| |exact Hch|exact Hne|exact Hp| |].
  { unfold kshuffle_bench_gens. rewrite gens_cap_new, E11. apply Nat.pow_lt_mono_r; lia. }
  { unfold kshuffle_bench_gens. rewrite gens_cap_new, E11. apply pad_le. rewrite <- E11. lia. }
  cbv zeta in P, K. eexists. split; [exact P|]. unfold kshuffle_run. rewrite P. cbn [unwrap opt_bind shuffle_valid]. split; [apply unwrap_tt|]. intros R. rewrite (K R). reflexivity.
Qed.

(** The batch helper accepts all shuffles of [k] values together. *)
Theorem C85_batch_helper : forall (F : Field) (V : VSpace F) (E : TrEnv V) chain dbg k pc tr (shuffles : list (PRand F * list (F * F) * list (F * F))) rrs ws,
  (forall tr lb, exists c tr', challenge_scalar E tr lb = Some (c, tr') /\ c <> 0) -> (next_power_of_two (2 * k) < 2 ^ 32)%nat -> (1 <= k)%nat ->
  Forall (fun '(_, input, output) => length input = k /\ Permutation (map fst input) (map fst output)) shuffles ->
  length rrs = length shuffles -> length shuffles = S (length ws) ->
  exists ps, shuffles_prove E dbg pc (kshuffle_gens chain k) tr shuffles = Some ps /\
    (Forall regular ps -> kshuffle_batch_helper E chain dbg k pc tr shuffles rrs ws = Some tt).
Proof.
  intros F V E chain dbg k pc tr shuffles rrs ws Hch H32 Hk Hs Hr Hw. set (g := kshuffle_gens chain k).
  assert (Hg : gens_wf g) by apply gens_wf_new.
  assert (HP : exists ps, shuffles_prove E dbg pc g tr shuffles = Some ps /\ length ps = length shuffles /\
    Forall (fun p => regular p -> forall rr, shuffle_shape k (p, rr) /\ shuffle_valid E dbg pc g tr (p, rr)) ps).
  { clear Hr Hw. unfold shuffles_prove. induction shuffles as [|[[rnd input] output] shuffles IH]; [exists []; repeat split; constructor|].
    apply Forall_cons_iff in Hs as [[Hl Hp] Hs]. destruct (IH Hs) as (ps & P & Lp & K). cbn [map all_some].
    destruct (C74_shuffle_complete F V E pc g tr dbg rnd input output) as (pf & P1 & K1); [exact Hg|unfold g, kshuffle_gens; rewrite gens_cap_new; exact H32|exact Hch|intros ->; cbn in Hl; lia|exact Hp| |].
    { unfold g, kshuffle_gens. rewrite gens_cap_new, Hl. apply pad_le. pose proof (next_power_of_two_ge (2 * k)) as G. unfold next_power_of_two in G. lia. }
    cbv zeta in P1, K1. rewrite P1, P. cbn [unwrap opt_bind]. eexists. split; [reflexivity|]. split; [cbn [length]; congruence|]. constructor; [|exact K].
    intros R rr. split; [|exact (K1 R dbg rr)]. split; [rewrite map_length; exact Hl|].
    unfold shuffle_prove in P1. destruct (p_commits E pc _ input) as [s1 [ci xi]]. destruct (p_commits E pc s1 output) as [s2 [co yo]]. destruct (prun E _ s2) as [[s3 [u|e]]|]; try discriminate P1.
    destruct (r1cs_prove E dbg rnd pc g s3) as [[[pf' trf]|]|] eqn:Hpr; try discriminate P1. cbn [res_bind fst] in P1. apply Some_inj in P1. injection P1 as -> _ _. exact (proof_lengths E _ _ _ _ _ _ _ Hpr). }
  destruct HP as (ps & P & Lp & K). exists ps. split; [exact P|]. intros R. unfold kshuffle_batch_helper. fold g. rewrite P. cbn [opt_bind].
  assert (KK : Forall (fun job => shuffle_shape k job /\ shuffle_valid E dbg pc g tr job) (combine ps rrs)).
  { assert (Lr : length ps = length rrs) by congruence. clear - R K Lr. revert rrs Lr. induction ps as [|p ps IH]; intros [|rr rrs] Lr; try discriminate Lr; [constructor|]. apply Forall_cons_iff in R as [R1 R], K as [K1 K]. cbn [combine]. constructor; [exact (K1 R1 rr)|]. apply IH; [exact K|exact R|cbn in Lr; lia]. }
  apply (C85_batch_complete F V E dbg pc g tr k); [exact Hg| |rewrite combine_length; lia|]; (eapply Forall_impl; [|exact KK]); intros a [A B]; assumption.
Qed.

(** No shuffle at all, or shuffles of no values, make the helper panic. *)
Theorem C85_panics : forall (F : Field) (V : VSpace F) (E : TrEnv V) chain dbg pc tr,
  (forall k rrs ws, kshuffle_batch_helper E chain dbg k pc tr [] rrs ws = None) /\
  (forall n rnd shuffles rrs ws, shuffles = repeat (rnd, [], []) (S n) -> kshuffle_batch_helper E chain dbg 0 pc tr shuffles rrs ws = None).
Proof.
  intros F V E chain dbg pc tr. split; [reflexivity|]. intros n rnd shuffles rrs ws ->. unfold kshuffle_batch_helper, shuffles_prove. cbn [repeat map all_some].
  rewrite (proj1 (C74_empty_panics F V E pc (kshuffle_gens chain 0) tr dbg rnd)). reflexivity.
Qed.
Print Assumptions C85_helper.
Print Assumptions C85_bench.
Print Assumptions C85_batch_helper.
Print Assumptions C85_panics.

(** ** Examples *)
(* test data, no code modelled *)
Definition one_in : list (F101 * F101) := [(z101 3, z101 8)].
(* test data, no code modelled *)
Definition one_out : list (F101 * F101) := [(z101 3, z101 5)].
(* test data, no code modelled *)
Definition two_in : list (F101 * F101) := [(z101 3, z101 8); (z101 9, z101 4)].
(* test data, no code modelled *)
Definition two_out : list (F101 * F101) := [(z101 9, z101 6); (z101 3, z101 5)].
(* test data, no code modelled *)
Definition two_wrong : list (F101 * F101) := [(z101 9, z101 6); (z101 4, z101 5)].
(* test data, no code modelled *)
Definition sb_run (l : list (list (F101 * F101) * list (F101 * F101))) : option (option unit) :=
  do ps <- shuffles_prove E101 true pc101 g101 [] (map (fun '(i, o) => (rnd101, i, o)) l);
  Some (shuffles_verify E101 true pc101 g101 [] (combine ps (map z101 [7; 8; 9]%Z)) (map z101 (firstn (length l - 1) [55; 66]%Z))).
Example C85_run_test : (sb_run [(two_in, two_out)], sb_run [(two_in, two_out); (two_in, two_in); (two_out, two_in)], sb_run [(two_in, two_out); (two_in, two_wrong)], sb_run [(one_in, one_out); (one_in, one_in)]) =
  (Some (Some tt), Some (Some tt), Some None, Some (Some tt)).
Proof. vm_compute. reflexivity. Qed.

(** Refuted: shuffles that are accepted one by one are accepted together.  A shuffle of one
    value and a shuffle of two values are refused as a batch: the batch has the size of its
    first circuit. *)
Theorem C85_mixed_refuted : exists (F : Field) (V : VSpace F) (E : TrEnv V) dbg pc (g : BPGens V) tr (job1 job2 : R1CSProof V * list V * list V * F) w,
  gens_wf g /\ shuffle_shape 1 job1 /\ shuffle_shape 2 job2 /\ shuffle_valid E dbg pc g tr job1 /\ shuffle_valid E dbg pc g tr job2 /\
  shuffles_verify E dbg pc g tr [job1; job2] [w] = None.
Proof.
  exists F101, (RegV F101), E101, true, pc101, g101, [].
  assert (H : match shuffle_prove E101 true rnd101 pc101 g101 [] one_in one_out, shuffle_prove E101 true rnd101 pc101 g101 [] two_in two_out with
    | Some (Ok (pf1, ci1, co1)), Some (Ok (pf2, ci2, co2)) =>
      (length ci1 =? 1)%nat && (length (ipp_R (pipp pf1)) =? length (ipp_L (pipp pf1)))%nat && ((length ci2 =? 2)%nat && (length (ipp_R (pipp pf2)) =? length (ipp_L (pipp pf2)))%nat) &&
      ok_res (shuffle_verify E101 true (z101 7) pf1 pc101 g101 [] ci1 co1) && ok_res (shuffle_verify E101 true (z101 8) pf2 pc101 g101 [] ci2 co2) &&
      match shuffles_verify E101 true pc101 g101 [] [(pf1, ci1, co1, z101 7); (pf2, ci2, co2, z101 8)] [z101 55] with None => true | Some _ => false end
    | _, _ => false end = true) by (vm_compute; reflexivity).
  destruct (shuffle_prove E101 true rnd101 pc101 g101 [] one_in one_out) as [[[[pf1 ci1] co1]|]|]; [|discriminate H|discriminate H].
  destruct (shuffle_prove E101 true rnd101 pc101 g101 [] two_in two_out) as [[[[pf2 ci2] co2]|]|]; [|discriminate H|discriminate H].
  apply andb_prop in H as [H H5]. apply andb_prop in H as [H H4]. apply andb_prop in H as [H H3]. apply andb_prop in H as [H1 H2]. apply andb_prop in H1 as [A1 B1], H2 as [A2 B2].
  apply Nat.eqb_eq in A1, B1, A2, B2. exists (pf1, ci1, co1, z101 7), (pf2, ci2, co2, z101 8), (z101 55).
  split; [apply gens_wf_new|]. split; [split; assumption|]. split; [split; assumption|]. split; [apply ok_res_true; exact H3|]. split; [apply ok_res_true; exact H4|].
  destruct (shuffles_verify _ _ _ _ _ _ _); [discriminate H5|reflexivity].
Qed.
Print Assumptions C85_mixed_refuted.

(* test data, no code modelled *)
Definition sb_chain (l : bytes) (i : nat) : RegV F101 := z101 (Z.of_nat (3 * length l + 7 * i + 2 * N.to_nat (hd 0%N l))).
(* test data, no code modelled *)
Definition sb_shuffles : list (PRand F101 * list (F101 * F101) * list (F101 * F101)) := [(rnd101, two_in, two_out); (rnd101, two_out, two_out); (rnd101, two_out, two_in)].
(** Three shuffles of two values meet the hypotheses of [C85_batch_helper], and the proofs
    are regular. *)
Example C85_demo : (forall tr lb, exists c tr', challenge_scalar sh_env tr lb = Some (c, tr') /\ c <> 0) /\ (next_power_of_two (2 * 2) < 2 ^ 32)%nat /\
  Forall (fun '(_, input, output) => length input = 2%nat /\ Permutation (map fst input) (map fst output)) sb_shuffles /\
  exists ps, shuffles_prove sh_env true pc101 (kshuffle_gens sb_chain 2) [] sb_shuffles = Some ps /\ Forall regular ps /\
    kshuffle_batch_helper sh_env sb_chain true 2 pc101 [] sb_shuffles (map z101 [7; 8; 9]%Z) (map z101 [55; 66]%Z) = Some tt.
Proof.
  assert (A : forall tr lb, exists c tr', challenge_scalar sh_env tr lb = Some (c, tr') /\ c <> 0) by (intros tr lb; apply const_env_good; apply feqb_false; vm_compute; reflexivity).
  assert (B : (next_power_of_two (2 * 2) < 2 ^ 32)%nat) by (apply (Nat.lt_le_trans _ (2 ^ 8)); [apply Nat.ltb_lt; vm_compute; reflexivity|apply Nat.pow_le_mono_r; lia]).
  assert (C : Forall (fun '(_, input, output) => length input = 2%nat /\ Permutation (map fst input) (map fst output)) sb_shuffles).
  { repeat constructor; cbn; try apply perm_swap; try apply Permutation_refl. }
  split; [exact A|]. split; [exact B|]. split; [exact C|].
  destruct (C85_batch_helper F101 (RegV F101) sh_env sb_chain true 2 pc101 [] sb_shuffles (map z101 [7; 8; 9]%Z) (map z101 [55; 66]%Z) A B ltac:(lia) C eq_refl eq_refl) as (ps & P & K).
  exists ps. split; [exact P|]. assert (R : Forall regular ps); [|split; [exact R|exact (K R)]].
  assert (H : match shuffles_prove sh_env true pc101 (kshuffle_gens sb_chain 2) [] sb_shuffles with
    | Some ps => forallb (fun p => forallb (fun P => negb (veqb P v0)) (validated_points (op_degree_of 0) (fst (fst p)))) ps | None => false end = true) by (vm_compute; reflexivity).
  rewrite P in H. rewrite forallb_forall in H. apply Forall_forall. intros p Hp. specialize (H p Hp). rewrite forallb_forall in H. apply Forall_forall. intros Q HQ. specialize (H Q HQ). intros ->. rewrite veqb_refl in H. discriminate.
Qed.
