(** * C79, C80: circuits over committed vectors from end to end *)
From Verif Require Import VecClients ShuffleProofs CSProofs CSLogic CSMore UtilProofs GadgetProofs R1CSSpec R1CSProofs R1CSMain R1CSVerif R1CSMore R1CSTotal FlatProofs Lockstep SelSim CircuitSize SoundSpec SoundFree SoundLift SoundCount Forge ForgeProofs Curve Late PropsGadgets PropsR1CS PropsSound PropsConserve PropsShuffle PropsClients Toy ToyCurve.
Local Open Scope F_scope.

Section VecClient.
  Context {F : Field} {V : VSpace F} (E : TrEnv V) (pc : PedersenGens V) (g : BPGens V).
  Add Field FFvc : (f_th F).
  (** The commitment to the vector [v] with blinding [h]: the first [length v] generators
      [G] of party 0 and [B~] (no code modelled: the statement's view of prover.rs 312-361). *)
  Definition opens_vector (v : list F) (h : F) (com : V) : Prop :=
    exists Gs, share_G g 0 (length v) = Some Gs /\ length Gs = length v /\ com = msm (h :: v) (pcB_blinding pc :: Gs).
  Lemma vec_start (scalars : list (F * F)) v h : gens_wf g -> (length v <= gens_capacity g)%nat ->
    exists com s0 t0, opens_vector v h com /\ session E pc g vec_transcript s0 t0 /\
    let coms := map (fun p => pc_commit pc (fst p) (snd p)) scalars in
    let ds := map Committed (seq 0 (length scalars)) in
    let vars := map (VectorCommit 0) (seq 0 (length v)) in
    (exists tr, s0 = mkP tr [] [] [] [] (map fst scalars) (map snd scalars) [(h, v)] [] None) /\
    (exists tr, t0 = mkV tr [] [(com, length v)] 0 coms [] None) /\
    p_commit_vec E pc g (fst (p_commits E pc (p_new vec_transcript) scalars)) v h = Some (s0, (com, vars)) /\
    (forall circuit dbg rnd, vec_prove E dbg rnd pc g scalars v h circuit = do (s, _) <- prun E (circuit ds vars) s0; dor r <- r1cs_prove E dbg rnd pc g s; Some (Ok (fst r, coms, com))) /\
    (forall circuit, vec_statement E coms (length v) com circuit = do (t, _) <- vrun E (circuit ds vars) t0; Some t).
  Proof.
    intros (Gr & Hr & HG & HH & LG & LH) Hl.
    destruct (session_commits E pc g vec_transcript scalars (p_new vec_transcript) (v_new vec_transcript) (ses_new _ _ _ _) eq_refl) as (s1 & t1 & P1 & V1 & S1 & L1).
    destruct (p_commits_spec E pc scalars (p_new vec_transcript)) as [tr1 Hs1]. rewrite P1 in Hs1. injection Hs1 as Hs1.
    set (coms := map (fun p => pc_commit pc (fst p) (snd p)) scalars) in *.
    destruct (v_commits_spec E coms (v_new vec_transcript)) as [tr2 Ht1]. rewrite V1 in Ht1. injection Ht1 as Ht1 _.
    cbn [p_new p_cs p_aL p_aR p_aO p_v p_vb p_vec p_def p_pend app] in Hs1. cbn [v_new v_cs v_vec v_num v_V v_def v_pend app] in Ht1.
    assert (Hsh : share_G g 0 (length v) = Some (firstn (length v) Gr)) by (unfold share_G; rewrite HG; reflexivity).
    assert (LGs : length (firstn (length v) Gr) = length v) by (rewrite firstn_length; lia).
    set (com := msm (h :: v) (pcB_blinding pc :: firstn (length v) Gr)).
    assert (Hc : p_commit_vec E pc g s1 v h = Some (mkP (append_point E (p_tr s1) "V" com) (p_cs s1) (p_aL s1) (p_aR s1) (p_aO s1) (p_v s1) (p_vb s1) (p_vec s1 ++ [(h, v)]) (p_def s1) (p_pend s1),
       (com, map (VectorCommit (length (p_vec s1))) (seq 0 (length v))))).
    { unfold p_commit_vec. rewrite Hsh. cbn [opt_bind]. unfold guard. cbn [length]. rewrite LGs, Nat.eqb_refl. reflexivity. }
    eexists com, _, _. split; [exists (firstn (length v) Gr); repeat split; [exact Hsh|exact LGs]|]. split; [exact (ses_commit_vec _ _ _ _ _ _ _ _ _ _ _ S1 Hc)|].
    cbv zeta. split; [exists (append_point E tr1 "V" com); subst s1; reflexivity|]. split; [exists (append_point E tr2 "V" com); subst t1; reflexivity|]. split; [rewrite P1; cbn [fst]; rewrite Hc; subst s1; reflexivity|]. split.
    - intros circuit dbg rnd. unfold vec_prove. rewrite P1, Hc. cbn [opt_bind p_new p_v]. subst s1. reflexivity.
    - intros circuit. unfold vec_statement. rewrite V1. unfold v_commit_vec. cbn [p_new p_v length]. subst t1. reflexivity.
  Qed.

  (** Circuits that only add constraints (no code modelled). *)
  Definition chain (cs : list (LC F)) : Prog F unit := fold_right PConstrain (PRet tt) cs.
  Lemma chain_prun cs : forall s : PState F, prun E (chain cs) s = Some (p_restated s (p_cs s ++ cs), tt).
  Proof.
    induction cs as [|c cs IH]; intros s; cbn [chain fold_right prun]; [rewrite app_nil_r; destruct s; reflexivity|]. fold (chain cs). rewrite IH. destruct s. cbn. rewrite <- app_assoc. reflexivity.
  Qed.
  Lemma chain_vrun cs : forall t : VState V, vrun E (chain cs) t = Some (v_restated t (v_cs t ++ cs), tt).
  Proof.
    induction cs as [|c cs IH]; intros s; cbn [chain fold_right vrun]; [rewrite app_nil_r; destruct s; reflexivity|]. fold (chain cs). rewrite IH. destruct s. cbn. rewrite <- app_assoc. reflexivity.
  Qed.
  Lemma chain_same cs : same_gadget (chain cs) (chain cs).
  Proof. induction cs as [|c cs IH]; cbn [chain fold_right]; constructor; exact IH. Qed.
  (** The assignment given by the committed values (no code modelled). *)
  Definition values_asg (ds v : list F) (x : Var) : F :=
    match x with Committed i => nth i ds 0 | VectorCommit 0 i => nth i v 0 | One => 1 | _ => 0 end.
  (** Variables of the committed values (no code modelled). *)
  Definition known (m n : nat) (x : Var) : Prop := match x with Committed i => (i < m)%nat | VectorCommit 0 i => (i < n)%nat | One => True | _ => False end.
  (** What is claimed of a client (no code modelled): the prover returns a proof; if [holds]
      the verifier accepts it, and if not, it refuses it unless the verifier draws zero or [z]
      is one of [k] values, which are fixed by the values and blindings.  The points of the
      proof that the verifier checks must not be the identity. *)
  Definition decides (scalars : list (F * F)) (v : list F) (h : F) (circuit : list Var -> list Var -> Prog F unit) (k : nat) (holds : Prop) : Prop :=
    let coms := map (fun p => pc_commit pc (fst p) (snd p)) scalars in
    exists com t Unlucky, opens_vector v h com /\ vec_statement E coms (length v) com circuit = Some t /\ at_most k Unlucky /\
    forall dbg rnd, exists pf, vec_prove E dbg rnd pc g scalars v h circuit = Some (Ok (pf, coms, com)) /\
      (Forall (fun P => P <> v0) (validated_points (op_degree_of 1) pf) -> exists t2 y z x, r1cs_challenges E pf t = Some (t2, y, z, x) /\ forall dbg' rr,
        (holds -> vec_verify E dbg' rr pf pc g coms (length v) com circuit = Some (Ok tt)) /\
        (~ holds -> ~ Unlucky z -> rr <> 0 -> vec_verify E dbg' rr pf pc g coms (length v) com circuit = Some (Err VerificationError))).
  Lemma linear_client (scalars : list (F * F)) v h circuit cs :
    circuit (map Committed (seq 0 (length scalars))) (map (VectorCommit 0) (seq 0 (length v))) = chain cs -> cs <> [] ->
    Forall (Forall (fun x => known (length scalars) (length v) (fst x))) cs ->
    gens_wf g -> (next_power_of_two (length v) <= gens_capacity g < 2 ^ 32)%nat -> (forall tr lb, exists c tr', challenge_scalar E tr lb = Some (c, tr') /\ c <> 0) -> pcB pc <> v0 ->
    decides scalars v h circuit (length cs - 1) (Forall (fun lc => lc_val (values_asg (map fst scalars) v) lc = 0) cs).
  Proof.
    intros Hcirc Hne Hk Hw [Hc1 Hc] Hch HB. unfold decides. set (coms := map (fun p => pc_commit pc (fst p) (snd p)) scalars).
    destruct (vec_start scalars v h Hw) as (com & s0 & t0 & Hop & S0 & [tr1 Es] & [tr2 Et] & Hcom & Hprove & Hst); [pose proof (next_power_of_two_ge (length v)); lia|]. fold coms in Et, Hprove, Hst.
    set (s := p_restated s0 cs). set (t := v_restated t0 cs).
    assert (Hp : prun E (circuit (map Committed (seq 0 (length scalars))) (map (VectorCommit 0) (seq 0 (length v)))) s0 = Some (s, tt)) by (rewrite Hcirc, chain_prun; subst s s0; reflexivity).
    assert (Hv : vrun E (circuit (map Committed (seq 0 (length scalars))) (map (VectorCommit 0) (seq 0 (length v)))) t0 = Some (t, tt)) by (rewrite Hcirc, chain_vrun; subst t t0; reflexivity).
    assert (Hs : session E pc g vec_transcript s t) by (rewrite Hcirc in Hp, Hv; exact (ses_gadget _ _ _ _ _ _ _ _ _ _ _ _ _ S0 (chain_same cs) Hp Hv)).
    assert (Hasg : forall lc, In lc cs -> lc_val (p_asg s) lc = lc_val (values_asg (map fst scalars) v) lc /\ Forall (fun x => p_var s (fst x) <> None) lc).
    { intros lc Hin. rewrite Forall_forall in Hk. specialize (Hk _ Hin). clear - Hk Es. induction Hk as [|[x c] lc Hx Hk IH]; [split; [reflexivity|constructor]|].
      destruct IH as [IH1 IH2]. cbn [fst] in Hx.
      assert (Hxv : p_var s x = Some (values_asg (map fst scalars) v x)).
      { subst s s0. destruct x as [[|j] i|i|i|i|i|]; cbn in Hx |- *; try contradiction; try reflexivity; apply nth_error_nth'; [|rewrite map_length]; exact Hx. }
      split; [|constructor; [cbn [fst]; rewrite Hxv; discriminate|exact IH2]].
      change (lc_val (p_asg s) ((x, c) :: lc)) with (c * p_asg s x + lc_val (p_asg s) lc). change (lc_val (values_asg (map fst scalars) v) ((x, c) :: lc)) with (c * values_asg (map fst scalars) v x + lc_val (values_asg (map fst scalars) v) lc). rewrite IH1. unfold p_asg at 1. rewrite Hxv. reflexivity. }
    assert (Hall : Forall (fun lc => lc_val (p_asg s) lc = 0) cs <-> Forall (fun lc => lc_val (values_asg (map fst scalars) v) lc = 0) cs).
    { rewrite !Forall_forall. split; intros H lc Hin; specialize (H lc Hin); destruct (Hasg lc Hin) as [Ha _]; congruence. }
    assert (Hvec : length (p_vec s) = 1%nat) by (subst s s0; reflexivity). assert (Hd : p_def s = []) by (subst s s0; reflexivity). assert (Hcs : p_cs s = cs) by (subst s s0; reflexivity).
    assert (Hsz : p_size s = length v) by (subst s s0; reflexivity).
    exists com, t, (fun z => ~ Forall (fun lc => lc_val (p_asg s) lc = 0) cs /\ z <> 0 /\ batched_constraints (p_asg s) z cs = 0). split; [exact Hop|]. split; [rewrite Hst, Hv; reflexivity|]. split.
    { destruct (Forall_Exists_dec (fun lc => lc_val (p_asg s) lc = 0) (fun lc => f_eq_dec _ 0) cs) as [Ha|He].
      - intros [|z l] _ Hl; [cbn; lia|]. apply Forall_inv in Hl. destruct Hl as [Hl _]. contradiction.
      - intros l Hnd Hl. assert (length l < length cs)%nat; [|lia]. eapply batching_z; [exact He|exact Hnd| |].
        + intros H0. rewrite Forall_forall in Hl. destruct (Hl 0 H0) as (_ & Hz & _). apply Hz. reflexivity.
        + eapply Forall_impl; [|exact Hl]. intros z (_ & _ & H). exact H. }
    intros dbg rnd. destruct (C08_prove_total F V E pc g _ _ _ dbg rnd Hs Hd Hw Hch) as (pf & trf & Hpf); [lia|rewrite Hsz; exact Hc1| |].
    { rewrite Hcs. apply Forall_forall. intros lc Hin. apply Hasg. exact Hin. }
    exists pf. rewrite Hprove, Hp. cbn [opt_bind]. rewrite Hpf. split; [reflexivity|]. intros Hnz.
    destruct (C10_exact F V E pc g _ _ _ dbg rnd pf trf Hs Hd Hw Hc HB Hpf) as (t2 & y & z & x & Hcha & Hx); [rewrite Hvec; exact Hnz|].
    exists t2, y, z, x. split; [exact Hcha|]. destruct (challenges_nonzero E pf _ t2 y z x Hch Hcha) as [Hz0 Hx0]. rewrite Hcs in Hx. intros dbg' rr. destruct (Hx dbg' rr) as [Hiff Hdec].
    unfold vec_verify. rewrite Hst, Hv. cbn [opt_bind]. split.
    - intros H. rewrite (proj2 Hiff); [reflexivity|]. right. right. rewrite batched_constraints_peval, peval_zero; [ring|]. rewrite Forall_map. apply Hall. exact H.
    - intros H Hu Hr. destruct Hdec as [Hok|He]; [|rewrite He; reflexivity]. exfalso. apply Hiff in Hok. destruct Hok as [H0|[H0|H0]]; [contradiction|contradiction|]. apply Hu. split; [rewrite Hall; exact H|]. split; [exact Hz0|exact H0].
  Qed.
  Lemma decides_iff scalars v h circuit k (A B : Prop) : (A <-> B) -> decides scalars v h circuit k A -> decides scalars v h circuit k B.
  Proof.
    intros H (com & t & U & H1 & H2 & H3 & H4). exists com, t, U. split; [exact H1|]. split; [exact H2|]. split; [exact H3|]. intros dbg rnd. destruct (H4 dbg rnd) as (pf & H5 & H6). exists pf. split; [exact H5|].
    intros Hnz. destruct (H6 Hnz) as (t2 & y & z & x & H7 & H8). exists t2, y, z, x. split; [exact H7|]. intros dbg' rr. destruct (H8 dbg' rr) as [H9 H10]. split; [intros Hb; apply H9, H, Hb|intros Hb; apply H10; rewrite H; exact Hb].
  Qed.
  (** The constraints of the Fibonacci circuit (no code modelled). *)
  Fixpoint fib_cs (a b : Var) (xs : list Var) : list (LC F) :=
    match xs with [] => [] | x :: r => lc_sub (lc_var x) (lc_add (lc_var b) (lc_var a)) :: fib_cs b x r end.
  Lemma fib_chain xs : forall a b, fib_loop a b xs = chain (fib_cs a b xs).
  Proof. induction xs as [|x xs IH]; intros a b; cbn [fib_loop fib_cs chain fold_right]; [reflexivity|]. rewrite IH. reflexivity. Qed.
  Lemma fib_cs_length xs : forall a b, length (fib_cs a b xs) = length xs.
  Proof. induction xs as [|x xs IH]; intros a b; cbn; [reflexivity|]. rewrite IH. reflexivity. Qed.
  Lemma fib_cs_known (ok : Var -> Prop) xs : forall a b, ok a -> ok b -> Forall ok xs -> Forall (Forall (fun x => ok (fst x))) (fib_cs a b xs).
  Proof.
    induction xs as [|x xs IH]; intros a b Ha Hb Hx; cbn [fib_cs]; [constructor|]. rewrite Forall_cons_iff in Hx. destruct Hx as [Hx Hxs]. constructor; [|apply IH; assumption]. cbn. repeat constructor; assumption.
  Qed.
  Lemma fib_cs_holds (w : Var -> F) j n : forall i a b, w a = w (VectorCommit j i) -> w b = w (VectorCommit j (S i)) ->
    Forall (fun lc => lc_val w lc = 0) (fib_cs a b (map (VectorCommit j) (seq (2 + i) n))) <->
    forall k, (i <= k < i + n)%nat -> w (VectorCommit j (2 + k)) = w (VectorCommit j (1 + k)) + w (VectorCommit j k).
  Proof.
    induction n as [|n IH]; intros i a b Ha Hb; cbn [seq map fib_cs].
    - split; [intros _ k Hk; lia|constructor].
    - rewrite Forall_cons_iff, lc_val_sub, lc_val_add, !lc_val_var, Ha, Hb. change (S (2 + i)) with (2 + S i)%nat. rewrite (IH (S i) b (VectorCommit j (2 + i)) Hb eq_refl). rewrite fsub_0_iff. split.
      + intros [H1 H2] k Hk. destruct (Nat.eq_dec k i) as [->|]; [exact H1|apply H2; lia].
      + intros H. split; [apply H; lia|intros k Hk; apply H; lia].
  Qed.
End VecClient.

(** The committed vector is the Fibonacci sequence (no code modelled: specification). *)
Definition is_fib {F : Field} (v : list F) : Prop :=
  nth 0 v 0 = 1 /\ nth 1 v 0 = 1 /\ forall i, (2 + i < length v)%nat -> nth (2 + i) v 0 = nth (1 + i) v 0 + nth i v 0.

(** ** C79: circuits with linear constraints *)
(** r1cs_vec.rs 83-331: [d1 = d2], whatever the vector is. *)
Theorem C79_equal_exact : forall (F : Field) (V : VSpace F) (E : TrEnv V) pc g (d1 d2 h1 h2 : F) v h,
  gens_wf g -> (next_power_of_two (length v) <= gens_capacity g < 2 ^ 32)%nat -> (forall tr lb, exists c tr', challenge_scalar E tr lb = Some (c, tr') /\ c <> 0) -> pcB pc <> v0 ->
  decides E pc g [(d1, h1); (d2, h2)] v h equal_circuit 0 (d1 = d2).
Proof.
  intros F V E pc g d1 d2 h1 h2 v h Hw Hc Hch HB.
  eapply decides_iff; [|eapply (linear_client E pc g _ v h equal_circuit [lc_sub (lc_var (Committed 0)) (lc_var (Committed 1))]); try assumption; try reflexivity; try discriminate].
  - rewrite Forall_cons_iff, lc_val_sub, !lc_val_var, fsub_0_iff. cbn. split; [intros [H _]; exact H|intros H; split; [exact H|constructor]].
  - repeat constructor.
Qed.
(** r1cs_vec.rs 335-475 *)
Theorem C79_linear_exact : forall (F : Field) (V : VSpace F) (E : TrEnv V) pc g (a1 a2 a3 a4 a5 h d1 d2 h1 h2 : F),
  gens_wf g -> (8 <= gens_capacity g < 2 ^ 32)%nat -> (forall tr lb, exists c tr', challenge_scalar E tr lb = Some (c, tr') /\ c <> 0) -> pcB pc <> v0 ->
  decides E pc g [(d1, h1); (d2, h2)] [a1; a2; a3; a4; a5] h linear_circuit 4
    (a1 = a2 /\ a2 = a3 /\ a4 = a1 + a2 + a3 /\ d1 = a1 + a2 + a3 + a4 + a5 /\ d1 = d2).
Proof.
  intros F V E pc g a1 a2 a3 a4 a5 h d1 d2 h1 h2 Hw Hc Hch HB. set (u i := lc_var (F := F) (VectorCommit 0 i)). set (d i := lc_var (F := F) (Committed i)).
  eapply decides_iff; [|eapply (linear_client E pc g _ _ h linear_circuit [lc_sub (u 0) (u 1); lc_sub (u 1) (u 2); lc_sub (u 3) (lc_add (lc_add (u 0) (u 1)) (u 2)); lc_sub (d 0) (lc_add (lc_add (lc_add (lc_add (u 0) (u 1)) (u 2)) (u 3)) (u 4)); lc_sub (d 0) (d 1)]%nat); try assumption; try reflexivity; try discriminate].
  - rewrite !Forall_cons_iff, !lc_val_sub, !lc_val_add. unfold u, d. rewrite !lc_val_var, !fsub_0_iff. cbn. intuition.
  - repeat constructor.
Qed.
(** r1cs_vec.rs 477-571, for every vector of at least two entries, in particular the one
    the prover computes. *)
Theorem C79_fib_exact : forall (F : Field) (V : VSpace F) (E : TrEnv V) pc g (v : list F) h,
  gens_wf g -> (2 <= length v)%nat -> (next_power_of_two (length v) <= gens_capacity g < 2 ^ 32)%nat -> (forall tr lb, exists c tr', challenge_scalar E tr lb = Some (c, tr') /\ c <> 0) -> pcB pc <> v0 ->
  decides E pc g [] v h fib_circuit (length v - 1) (is_fib v) /\ forall n, is_fib (F := F) (fib_vector n).
Proof.
  intros F V E pc g v h Hw Hl Hc Hch HB. split.
  - set (n := (length v - 2)%nat). assert (Hn : length v = (2 + n)%nat) by lia.
    set (cs := lc_sub (lc_var (VectorCommit 0 0)) (lc_const 1) :: lc_sub (lc_var (VectorCommit 0 1)) (lc_const 1) :: fib_cs (VectorCommit 0 0) (VectorCommit 0 1) (map (VectorCommit 0) (seq 2 n)) : list (LC F)).
    assert (Hcs : length cs = length v) by (unfold cs; cbn [length]; rewrite fib_cs_length, map_length, seq_length; lia). rewrite <- Hcs.
    eapply decides_iff; [|eapply (linear_client E pc g _ v h fib_circuit cs); try assumption; try discriminate].
    + unfold cs, is_fib. rewrite !Forall_cons_iff, !lc_val_sub, !lc_val_var, !lc_val_const, !fsub_0_iff by reflexivity. rewrite (fib_cs_holds _ 0 n 0) by reflexivity. cbn [values_asg]. split.
      * intros (H1 & H2 & H3). split; [exact H1|]. split; [exact H2|]. intros i Hi. apply H3. lia.
      * intros (H1 & H2 & H3). split; [exact H1|]. split; [exact H2|]. intros i Hi. apply H3. lia.
    + rewrite Hn. cbn [length seq map fib_circuit plus]. rewrite fib_chain. reflexivity.
    + unfold cs. constructor; [repeat constructor; cbn; lia|]. constructor; [repeat constructor; cbn; lia|]. apply (fib_cs_known (known 0 (length v))); [cbn; lia|cbn; lia|]. rewrite Forall_map. apply Forall_forall. intros i Hi. apply in_seq in Hi. cbn. lia.
  - intros n. split; [reflexivity|]. split; [reflexivity|]. unfold fib_vector.
    assert (Hgen : forall n (a b : F) i, (2 + i < S (S (length (fib_from a b n))))%nat -> nth (2 + i) (a :: b :: fib_from a b n) 0 = nth (1 + i) (a :: b :: fib_from a b n) 0 + nth i (a :: b :: fib_from a b n) 0).
    { clear. induction n as [|n IH]; intros a b i Hi; cbn [fib_from length] in Hi; [lia|]. destruct i as [|i]; [reflexivity|]. cbn [fib_from]. exact (IH b (b + a) i ltac:(cbn [fib_from length] in *; lia)). }
    intros i Hi. apply Hgen. exact Hi.
Qed.
Print Assumptions C79_equal_exact.
Print Assumptions C79_linear_exact.
Print Assumptions C79_fib_exact.

(** r1cs_vec.rs 17-80 and 574-669: the circuits without constraints always verify. *)
Theorem C79_unconstrained_complete : forall (F : Field) (V : VSpace F) (E : TrEnv V) pc g dbg rnd,
  gens_wf g -> (1 <= gens_capacity g < 2 ^ 32)%nat -> (forall tr lb, exists c tr', challenge_scalar E tr lb = Some (c, tr') /\ c <> 0) ->
  (forall h1 h2 : F, exists pf c1 c2, twice_prove E dbg rnd pc g h1 h2 = Some (Ok (pf, c1, c2)) /\
    (Forall (fun P => P <> v0) (validated_points (op_degree_of 2) pf) -> forall dbg' rr, twice_verify E dbg' rr pf pc g c1 c2 = Some (Ok tt))) /\
  (forall a b h : F, exists pf com, separate_prove E dbg rnd pc g a b h = Some (Ok (pf, com)) /\
    (Forall (fun P => P <> v0) (validated_points (op_degree_of 1) pf) -> forall dbg' rr, separate_verify E dbg' rr pf pc g com = Some (Ok tt))).
Proof.
  intros F V E pc g dbg rnd Hw [Hc1 Hc] Hch. pose proof Hw as (Gr & Hr & HG & HH & LG & LH).
  assert (Hcv : forall s h, p_commit_vec E pc g s [] h = Some (mkP (append_point E (p_tr s) "V" (msm [h] [pcB_blinding pc])) (p_cs s) (p_aL s) (p_aR s) (p_aO s) (p_v s) (p_vb s) (p_vec s ++ [(h, [])]) (p_def s) (p_pend s), (msm [h] [pcB_blinding pc], []))).
  { intros s h. unfold p_commit_vec, share_G. cbn [length]. rewrite HG. reflexivity. }
  split.
  - intros h1 h2. unfold twice_prove. rewrite Hcv. cbn [opt_bind].
    pose proof (ses_commit_vec E pc g _ _ _ _ _ _ _ _ (ses_new E pc g vec_transcript) (Hcv (p_new vec_transcript) h1)) as S1.
    match type of S1 with session _ _ _ _ ?s ?t => set (s1 := s) in *; set (t1 := t) in * end. rewrite (Hcv s1 h2). cbn [opt_bind].
    pose proof (ses_commit_vec E pc g _ _ _ _ _ _ _ _ S1 (Hcv s1 h2)) as S2. match type of S2 with session _ _ _ _ ?s ?t => set (s2 := s) in *; set (t2 := t) in * end.
    destruct (C08_prove_total F V E pc g _ _ _ dbg rnd S2 eq_refl Hw Hch) as (pf & trf & Hpf); [cbn; lia|exact Hc1|constructor|].
    rewrite Hpf. exists pf. eexists _, _. split; [reflexivity|]. intros Hnz dbg' rr.
    pose proof (C08_complete F V E pc g _ _ _ dbg rnd pf trf S2 eq_refl Hw Hc) as C. unfold twice_verify.
    change (fst (v_commit_vec E (fst (v_commit_vec E (v_new vec_transcript) 0 (msm [h1] [pcB_blinding pc]))) 0 (msm [h2] [pcB_blinding pc]))) with t2.
    rewrite C; [reflexivity| |exact Hpf|exact Hnz]. split; [reflexivity|]. split; [|constructor]. destruct (session_agree E pc g _ s2 t2 S2) as [Hg _]. exact (p_asg_gates _ Hg).
  - intros a b h. unfold separate_prove, separate_verify. cbn [free_multiplier prun vrun].
    destruct (p_allocate_multiplier (p_new vec_transcript) (Some (a, b))) as [s1 [[[u1 u2] u3]|e]] eqn:Ep; [|unfold p_allocate_multiplier in Ep; discriminate Ep].
    assert (S1 : exists t1, vrun E (free_multiplier (F := F) None) (v_new vec_transcript) = Some (t1, tt) /\ session E pc g vec_transcript s1 t1).
    { eexists. split; [reflexivity|]. eapply (ses_gadget E pc g vec_transcript unit (free_multiplier (Some (a, b))) (free_multiplier None)); [apply ses_new|apply sg_allocmul; intros v; constructor| |reflexivity].
      cbn [free_multiplier prun]. rewrite Ep. reflexivity. }
    destruct S1 as (t1 & Ht1 & S1). unfold p_allocate_multiplier in Ep. injection Ep as Es1 _ _ _.
    cbn [prun opt_bind]. rewrite Hcv. cbn [opt_bind].
    pose proof (ses_commit_vec E pc g _ _ _ _ _ _ _ _ S1 (Hcv s1 h)) as S2. match type of S2 with session _ _ _ _ ?s ?t => set (s2 := s) in *; set (t2 := t) in * end.
    assert (Hd : p_def s2 = [] /\ p_size s2 = 1%nat /\ p_cs s2 = [] /\ length (p_vec s2) = 1%nat) by (unfold s2; rewrite <- Es1; repeat split; reflexivity). destruct Hd as (Hd & Hsz & Hcs & Hvec).
    destruct (C08_prove_total F V E pc g _ _ _ dbg rnd S2 Hd Hw Hch) as (pf & trf & Hpf); [lia|rewrite Hsz; exact Hc1|rewrite Hcs; constructor|].
    rewrite Hpf. exists pf. eexists. split; [reflexivity|]. intros Hnz dbg' rr.
    pose proof (C08_complete F V E pc g _ _ _ dbg rnd pf trf S2 Hd Hw Hc) as C. unfold free_multiplier in Ht1. cbn [vrun] in Ht1. rewrite Ht1. cbn [opt_bind]. change (fst (v_commit_vec E t1 0 (msm [h] [pcB_blinding pc]))) with t2.
    rewrite C; [reflexivity| |exact Hpf|rewrite Hvec; exact Hnz]. split; [reflexivity|]. split; [|rewrite Hcs; constructor]. destruct (session_agree E pc g _ s2 t2 S2) as [Hg _]. exact (p_asg_gates _ Hg).
Qed.

(** ** C80: a product over committed values *)
Section MulClient.
  Context {F : Field} {V : VSpace F} (E : TrEnv V) (pc : PedersenGens V) (g : BPGens V).
  Add Field FFmc : (f_th F).
  (** The constraints of the circuit (no code modelled: the result of running it). *)
  Definition mul_cs : list (LC F) := [lc_var (VectorCommit 0 0) ++ [(MulL 0, - (1))]; lc_var (VectorCommit 0 1) ++ [(MulR 0, - (1))]; lc_sub (lc_var (MulO 0)) (lc_var (VectorCommit 0 2))].
  Lemma mul_session (a b c h : F) : gens_wf g -> (3 <= gens_capacity g)%nat ->
    exists com s t, opens_vector pc g [a; b; c] h com /\ session E pc g vec_transcript s t /\
      p_def s = [] /\ p_vec s = [(h, [a; b; c])] /\ p_aL s = [a] /\ p_aR s = [b] /\ p_aO s = [a * b] /\ p_cs s = mul_cs /\ v_def t = [] /\
      (exists s0, p_commit_vec E pc g (p_new vec_transcript) [a; b; c] h = Some (s0, (com, map (VectorCommit 0) (seq 0 3))) /\ prun E (mul_circuit [] (map (VectorCommit 0) (seq 0 3))) s0 = Some (s, tt)) /\
      (forall dbg rnd, vec_prove E dbg rnd pc g [] [a; b; c] h mul_circuit = dor r <- r1cs_prove E dbg rnd pc g s; Some (Ok (fst r, [], com))) /\
      vec_statement E [] 3 com mul_circuit = Some t.
  Proof.
    intros Hw Hc. destruct (vec_start E pc g [] [a; b; c] h Hw Hc) as (com & s0 & t0 & Hop & S0 & [tr1 Es] & [tr2 Et] & Hcom & Hprove & Hst).
    cbn [length map seq] in *.
    set (s := mkP tr1 mul_cs [a] [b] [a * b] [] [] [(h, [a; b; c])] [] None). set (t := mkV tr2 mul_cs [(com, 3%nat)] 1 [] [] None).
    assert (Hp : prun E (mul_circuit [] [VectorCommit 0 0; VectorCommit 0 1; VectorCommit 0 2]) s0 = Some (s, tt)).
    { subst s0. cbn [mul_circuit prun]. unfold p_multiply, p_eval. cbn [lc_var fold_right p_var p_vec nth_error opt_bind].
      assert (e1 : 1 * a + 0 = a) by ring. assert (e2 : 1 * b + 0 = b) by ring. rewrite e1, e2. reflexivity. }
    assert (Hv : vrun E (mul_circuit [] [VectorCommit 0 0; VectorCommit 0 1; VectorCommit 0 2]) t0 = Some (t, tt)) by (subst t0; reflexivity).
    exists com, s, t. split; [exact Hop|]. split; [eapply ses_gadget; [exact S0| |exact Hp|exact Hv]; constructor; intros [[? ?] ?]; repeat constructor|].
    repeat (split; [reflexivity|]). split; [|split].
    - exists s0. split; [exact Hcom|exact Hp].
    - intros dbg rnd. rewrite Hprove, Hp. reflexivity.
    - rewrite Hst, Hv. reflexivity.
  Qed.
  Lemma mul_value (w : Var -> F) a b c z : w (VectorCommit 0 0) = a -> w (VectorCommit 0 1) = b -> w (VectorCommit 0 2) = c -> w (MulL 0) = a -> w (MulR 0) = b -> w (MulO 0) = a * b ->
    batched_constraints w z mul_cs = z * (z * (z * (a * b - c))).
  Proof.
    intros H1 H2 H3 H4 H5 H6. rewrite batched_constraints_peval. unfold mul_cs. cbn [map peval]. rewrite lc_val_sub, !lc_val_app, !lc_val_var, H1, H2, H3, H6. cbn. rewrite H4, H5. ring.
  Qed.
  Lemma mul_zero (z a b c : F) : z <> 0 -> z * (z * (z * (a * b - c))) = 0 -> c = a * b.
  Proof. intros Hz H. symmetry. apply fsub_0_iff. repeat (apply fmul_eq_0 in H as [H|H]; [contradiction|]). exact H. Qed.
  Lemma mul_forged_linear (w : Var -> F) a b c : w (VectorCommit 0 0) = a -> w (VectorCommit 0 1) = b -> w (VectorCommit 0 2) = c -> w (MulL 0) = a -> w (MulR 0) = b -> w (MulO 0) = c ->
    Forall (fun lc => lc_val w lc = 0) mul_cs.
  Proof.
    intros H1 H2 H3 H4 H5 H6. unfold mul_cs. rewrite !Forall_cons_iff, lc_val_sub, !lc_val_app, !lc_val_var, H1, H2, H3, H6. cbn. rewrite H4, H5. split; [ring|]. split; [ring|]. split; [ring|constructor].
  Qed.
  Lemma mul_zero_inv (z a b : F) : z * (z * (z * (a * b - a * b))) = 0. Proof. ring. Qed.
  Lemma mul_padding (v : F) : 0 * 0 - 0 + v * 0 = 0. Proof. ring. Qed.
  Lemma mul_gate (a b c : F) : a <> 0 -> a * b - c + a * ((c - a * b) * finv a) = 0.
  Proof. intros H. field. exact H. Qed.

  (** A cheating prover for r1cs_vec.rs 671-763 (no code modelled).  It commits to [a], [b],
      [c] as the prover of the test does, puts the wires [a], [b], [c] into the gate whether or
      not [c] is [a * b], and hides the difference with a coefficient on the first
      generator [H]. *)
  Definition mul_forge (rnd : PRand F) (a b c h : F) : option (R1CSProof V * V) :=
    do (s, (com, vars)) <- p_commit_vec E pc g (p_new vec_transcript) [a; b; c] h;
    do (s, _) <- prun E (mul_circuit [] vars) s;
    do pf <- forge E rnd pc g (p_set_wires s [a] [b] [c]) [(c - a * b) * finv a; 0; 0];
    Some (pf, com).
End MulClient.

(** The prover of the test is accepted exactly if the third value is the product of the
    others. *)
Theorem C80_mul_exact : forall (F : Field) (V : VSpace F) (E : TrEnv V) pc g (a b c h : F),
  gens_wf g -> (4 <= gens_capacity g < 2 ^ 32)%nat -> (forall tr lb, exists c tr', challenge_scalar E tr lb = Some (c, tr') /\ c <> 0) -> pcB pc <> v0 ->
  exists com, opens_vector pc g [a; b; c] h com /\ forall dbg rnd, exists pf, vec_prove E dbg rnd pc g [] [a; b; c] h mul_circuit = Some (Ok (pf, [], com)) /\
    (Forall (fun P => P <> v0) (validated_points (op_degree_of 1) pf) -> forall dbg' rr, rr <> 0 ->
      (vec_verify E dbg' rr pf pc g [] 3 com mul_circuit = Some (Ok tt) <-> c = a * b) /\
      (vec_verify E dbg' rr pf pc g [] 3 com mul_circuit = Some (Ok tt) \/ vec_verify E dbg' rr pf pc g [] 3 com mul_circuit = Some (Err VerificationError))).
Proof.
  intros F V E pc g a b c h Hw [Hc1 Hc] Hch HB.
  destruct (mul_session E pc g a b c h Hw) as (com & s & t & Hop & Hs & Hd & Hvec & HL & HR & HO & Hcs & _ & _ & Hprove & Hst); [lia|].
  exists com. split; [exact Hop|]. intros dbg rnd. assert (Hsz : p_size s = 3%nat) by (unfold p_size; rewrite Hvec, HL; reflexivity).
  destruct (C08_prove_total F V E pc g _ _ _ dbg rnd Hs Hd Hw Hch) as (pf & trf & Hpf); [rewrite Hvec; cbn; lia|rewrite Hsz; exact Hc1| |].
  { rewrite Hcs. clear - Hvec HL HR HO. destruct s. cbn in *. subst. cbn. repeat constructor; discriminate. }
  exists pf. rewrite Hprove, Hpf. split; [reflexivity|]. intros Hnz dbg' rr Hr.
  destruct (C10_exact F V E pc g _ _ _ dbg rnd pf trf Hs Hd Hw Hc HB Hpf) as (t2 & y & z & x & Hcha & Hx); [rewrite Hvec; exact Hnz|].
  destruct (challenges_nonzero E pf _ t2 y z x Hch Hcha) as [Hz0 Hx0]. destruct (Hx dbg' rr) as [Hiff Hdec]. clear Hx.
  assert (Hval : batched_constraints (p_asg s) z (p_cs s) = z * (z * (z * (a * b - c)))).
  { rewrite Hcs. apply mul_value; clear - Hvec HL HR HO; destruct s; cbn in *; subst; reflexivity. }
  rewrite Hval in Hiff. unfold vec_verify. rewrite Hst. cbn [opt_bind]. split; [split|].
  - intros H. apply mul_zero with (z := z); [exact Hz0|]. destruct Hdec as [Hok|He]; [|rewrite He in H; discriminate H]. apply Hiff in Hok. destruct Hok as [H0|[H0|H0]]; [contradiction|contradiction|exact H0].
  - intros ->. rewrite (proj2 Hiff); [reflexivity|]. right. right. apply mul_zero_inv.
  - destruct Hdec as [Hok|He]; [left; rewrite Hok; reflexivity|right; rewrite He; reflexivity].
Qed.

(** That accepted proofs open to a product is false: for every [a] that is not zero and
    all [b] and [c], the proof of [mul_forge] is accepted for the commitment to [a], [b], [c].
    (There is one vector commitment, an odd number, see C67; its first entry is not zero.) *)
Theorem C80_mul_refuted : forall (F : Field) (V : VSpace F) (E : TrEnv V) pc g rnd (a b c h : F) pf com,
  gens_wf g -> (3 <= gens_capacity g < 2 ^ 32)%nat -> a <> 0 ->
  mul_forge E pc g rnd a b c h = Some (pf, com) -> Forall (fun P => P <> v0) (validated_points (op_degree_of 1) pf) ->
  opens_vector pc g [a; b; c] h com /\ forall dbg rr, vec_verify E dbg rr pf pc g [] 3 com mul_circuit = Some (Ok tt).
Proof.
  intros F V E pc g rnd a b c h pf com Hw [Hc1 Hc] Ha Hf Hnz.
  destruct (mul_session E pc g a b c h Hw Hc1) as (com' & s & t & Hop & Hs & Hd & Hvec & HL & HR & HO & Hcs & Hvd & (s0 & Hcom & Hrun) & _ & Hst).
  unfold mul_forge in Hf. rewrite Hcom in Hf. cbn [opt_bind] in Hf. rewrite Hrun in Hf. cbn [opt_bind] in Hf. set (s' := p_set_wires s [a] [b] [c]) in *.
  destruct (forge E rnd pc g s' [(c - a * b) * finv a; 0; 0]) as [pf'|] eqn:Ef; [|discriminate Hf]. cbn [opt_bind] in Hf. apply Some_inj in Hf. injection Hf as -> ->.
  split; [exact Hop|]. intros dbg rr. unfold vec_verify. rewrite Hst. cbn [opt_bind].
  destruct (session_agree E pc g _ s t Hs) as [_ Hag].
  assert (Ha' : agree pc g s' t) by (destruct Hag as [A1 A2 A3 A4 A5 A6 A7 A8 A9]; constructor; cbn; auto; rewrite HL in *; cbn [length] in *; congruence).
  assert (Hsz : p_size s' = 3%nat) by (unfold p_size, s'; cbn [p_set_wires p_vec p_aL]; rewrite Hvec; reflexivity).
  rewrite (forge_accepts E pc g dbg rr rnd s' t [(c - a * b) * finv a; 0; 0] pf); try assumption; try reflexivity.
  - unfold s'. cbn [p_set_wires p_vec]. rewrite Hvec. reflexivity.
  - rewrite Hsz. reflexivity.
  - unfold s' at 2. cbn [p_set_wires p_cs]. rewrite Hcs. apply (mul_forged_linear _ a b c); clear - Hvec; subst s'; destruct s; cbn in *; subst; reflexivity.
  - rewrite Hsz. unfold s'. cbn [p_set_wires p_vec p_aL p_aR p_aO]. rewrite Hvec. intros i Hi. destruct i as [|[|[|i]]]; cbn; [apply mul_gate; exact Ha|apply mul_padding|apply mul_padding|lia].
  - unfold s'. cbn [p_set_wires p_vec]. rewrite Hvec. exact Hnz.
Qed.
Print Assumptions C79_unconstrained_complete.
Print Assumptions C80_mul_exact.
Print Assumptions C80_mul_refuted.


(** ** Soundness of the linear circuits *)
Section VecSound.
  Context {F : Field} {V : VSpace F} (E : TrEnv V).
  Lemma vec_verified dbg rr pf pc (g : BPGens V) coms dim com circuit t : vec_statement E coms dim com circuit = Some t -> vec_verify E dbg rr pf pc g coms dim com circuit = Some (Ok tt) -> r1cs_verify E dbg rr pf pc g t = Some (Ok tt).
  Proof. intros Ht H. unfold vec_verify in H. rewrite Ht in H. cbn [opt_bind] in H. destruct (r1cs_verify E dbg rr pf pc g t) as [[[]|e]|]; [reflexivity|discriminate H|discriminate H]. Qed.
  Lemma chain_shape (coms : list V) dim com circuit cs t : circuit (map Committed (seq 0 (length coms))) (map (VectorCommit 0) (seq 0 dim)) = chain (F := F) cs ->
    vec_statement E coms dim com circuit = Some t -> v_size t = dim /\ v_cs t = cs.
  Proof.
    intros Hc Ht. unfold vec_statement in Ht. destruct (v_commits_spec E coms (v_new vec_transcript)) as [tr Hv]. rewrite Hv in Ht. unfold v_commit_vec in Ht. cbn [v_new v_V v_vec v_cs v_num v_def v_pend v_tr length app] in Ht.
    rewrite Hc, chain_vrun in Ht. cbn [opt_bind v_restated v_cs app] in Ht. apply Some_inj in Ht. subst t. split; [|reflexivity]. unfold v_size. cbn [v_restated v_vec v_num fold_left snd]. lia.
  Qed.
End VecSound.
(** For proofs of any prover that knows the coefficients of its points (the vector commitment
    may use the generators [H], and there may be an odd number of vector commitments): it
    knows a relation between the generators or the opened values satisfy the equations.
    Missing as in C66: other provers, and challenges that fall into small sets. *)
Theorem C79_linear_sound_partial : forall (F : Field) (V : VSpace F) (N : nat) (r1 r2 r : FreeV F (2 + (N + N))) (t2 : VState (FreeV F (2 + (N + N)))) AI1 AO1 SS1 AI2 AO2 SS2,
  v_V t2 = [r1; r2] -> v_vec t2 = [(r, 5%nat)] ->
  unless_unlucky N t2 (fun y z T u x tx txb eb w Ls Rs us a b rr =>
    let pf := mkProof AI1 AO1 SS1 AI2 AO2 SS2 T tx txb eb (mkIPP Ls Rs a b) in
    forall (E : TrEnv V) dbg pc g Gs Hs t vt,
      let phi := free_eval (generators pc Gs Hs) in
      gens_wf g -> share_G g 0 N = Some Gs -> share_H g 0 N = Some Hs -> length Rs = length Ls -> next_power_of_two (v_size t2) = N ->
      vec_statement E [phi r1; phi r2] 5 (phi r) linear_circuit = Some t ->
      all_challenges E (map_proof phi pf) t = Some (map_vstate phi t2, (y, z, u, x, w), us) ->
      vec_verify E dbg rr (map_proof phi pf) pc g [phi r1; phi r2] 5 (phi r) linear_circuit = Some (Ok tt) ->
      v_scalars_and_points E dbg rr (map_proof phi pf) t = Some (Ok vt) ->
      let c := combined N (vt_scalars vt) (all_points t2 pf) (vt_fixed vt) in
      let o i := on_G N i r in
      (c <> v0 /\ free_eval (generators pc Gs Hs) c = v0) \/
      (o 0%nat = o 1%nat /\ o 1%nat = o 2%nat /\ o 3%nat = o 0%nat + o 1%nat + o 2%nat /\ on_B N r1 = o 0%nat + o 1%nat + o 2%nat + o 3%nat + o 4%nat /\ on_B N r1 = on_B N r2)).
Proof.
  intros F V N r1 r2 r t2 AI1 AO1 SS1 AI2 AO2 SS2 HV Hvec.
  eapply unlucky_mono; [|apply (C66_extraction F V N t2 5 AI1 AO1 SS1 AI2 AO2 SS2)].
  cbv beta zeta. intros y z T u x tx txb eb w Ls Rs us a b rr Hg E dbg pc g Gs Hs t vt Hw HGs HHs HR HN Hst Hch Hver Hvt.
  set (q i := lc_var (F := F) (VectorCommit 0 i)). set (d i := lc_var (F := F) (Committed i)).
  destruct (chain_shape E _ _ _ _ [lc_sub (q 0) (q 1); lc_sub (q 1) (q 2); lc_sub (q 3) (lc_add (lc_add (q 0) (q 1)) (q 2)); lc_sub (d 0) (lc_add (lc_add (lc_add (lc_add (q 0) (q 1)) (q 2)) (q 3)) (q 4)); lc_sub (d 0) (d 1)]%nat _ eq_refl Hst) as [Hsz Hcs].
  pose proof (vec_verified E _ _ _ _ _ _ _ _ _ _ Hst Hver) as Hv.
  destruct (challenges_state _ _ _ _ _ _ Hch) as [_ Hinc].
  destruct (Hg E dbg pc g t Gs Hs vt Hw HGs HHs Hsz HR HN Hch Hv Hvt) as (H0 & [Hrel|[Hsat _]]); [left; split; [exact Hrel|exact H0]|right].
  rewrite Hcs in Hinc. clear - Hinc Hsat HV Hvec. cbn [map_vstate v_cs] in Hinc. apply (incl_Forall Hinc) in Hsat. revert Hsat. rewrite !Forall_cons_iff, !lc_val_sub, !lc_val_add. unfold q, d. rewrite !lc_val_var, !fsub_0_iff. cbn [extracted]. rewrite HV, Hvec. cbn [nth fst]. intuition.
Qed.
(** The same for the Fibonacci circuit of any dimension. *)
Theorem C79_fib_sound_partial : forall (F : Field) (V : VSpace F) (N dim : nat) (r : FreeV F (2 + (N + N))) (t2 : VState (FreeV F (2 + (N + N)))) AI1 AO1 SS1 AI2 AO2 SS2,
  v_vec t2 = [(r, dim)] -> (2 <= dim)%nat ->
  unless_unlucky N t2 (fun y z T u x tx txb eb w Ls Rs us a b rr =>
    let pf := mkProof AI1 AO1 SS1 AI2 AO2 SS2 T tx txb eb (mkIPP Ls Rs a b) in
    forall (E : TrEnv V) dbg pc g Gs Hs t vt,
      let phi := free_eval (generators pc Gs Hs) in
      gens_wf g -> share_G g 0 N = Some Gs -> share_H g 0 N = Some Hs -> length Rs = length Ls -> next_power_of_two (v_size t2) = N ->
      vec_statement E [] dim (phi r) fib_circuit = Some t ->
      all_challenges E (map_proof phi pf) t = Some (map_vstate phi t2, (y, z, u, x, w), us) ->
      vec_verify E dbg rr (map_proof phi pf) pc g [] dim (phi r) fib_circuit = Some (Ok tt) ->
      v_scalars_and_points E dbg rr (map_proof phi pf) t = Some (Ok vt) ->
      let c := combined N (vt_scalars vt) (all_points t2 pf) (vt_fixed vt) in
      (c <> v0 /\ free_eval (generators pc Gs Hs) c = v0) \/ is_fib (map (fun i => on_G N i r) (seq 0 dim))).
Proof.
  intros F V N dim r t2 AI1 AO1 SS1 AI2 AO2 SS2 Hvec Hdim.
  eapply unlucky_mono; [|apply (C66_extraction F V N t2 dim AI1 AO1 SS1 AI2 AO2 SS2)].
  cbv beta zeta. intros y z T u x tx txb eb w Ls Rs us a b rr Hg E dbg pc g Gs Hs t vt Hw HGs HHs HR HN Hst Hch Hver Hvt.
  set (n := (dim - 2)%nat). assert (Hn : dim = (2 + n)%nat) by lia.
  set (cs := lc_sub (lc_var (VectorCommit 0 0)) (lc_const 1) :: lc_sub (lc_var (VectorCommit 0 1)) (lc_const 1) :: fib_cs (VectorCommit 0 0) (VectorCommit 0 1) (map (VectorCommit 0) (seq 2 n)) : list (LC F)).
  destruct (chain_shape E [] dim (free_eval (generators pc Gs Hs) r) fib_circuit cs t) as [Hsz Hcs]; [rewrite Hn; cbn [length seq map fib_circuit plus]; rewrite fib_chain; reflexivity|exact Hst|].
  pose proof (vec_verified E _ _ _ _ _ _ _ _ _ _ Hst Hver) as Hv.
  destruct (challenges_state _ _ _ _ _ _ Hch) as [_ Hinc].
  destruct (Hg E dbg pc g t Gs Hs vt Hw HGs HHs Hsz HR HN Hch Hv Hvt) as (H0 & [Hrel|[Hsat _]]); [left; split; [exact Hrel|exact H0]|right].
  rewrite Hcs in Hinc. clear - Hinc Hsat Hvec Hn. cbn [map_vstate v_cs] in Hinc. apply (incl_Forall Hinc) in Hsat. revert Hsat.
  unfold cs, is_fib. rewrite !Forall_cons_iff, !lc_val_sub, !lc_val_var, !lc_val_const, !fsub_0_iff by reflexivity. rewrite (fib_cs_holds _ 0 n 0) by reflexivity. cbn [extracted]. rewrite Hvec. cbn [nth fst]. intros (H1 & H2 & H3).
  rewrite map_length, seq_length.
  assert (Hnth : forall i, (i < dim)%nat -> nth i (map (fun i => on_G N i r) (seq 0 dim)) 0 = on_G N i r) by (intros i Hi; rewrite nth_map_seq by exact Hi; reflexivity).
  split; [rewrite Hnth by lia; exact H1|]. split; [rewrite Hnth by lia; exact H2|]. intros i Hi. rewrite !Hnth by lia. apply H3. lia.
Qed.
Print Assumptions C79_linear_sound_partial.
Print Assumptions C79_fib_sound_partial.

(** ** Examples *)

(* test helper, no code modelled *)
Definition no_zero1 (pf : R1CSProof (RegV F101)) : bool := forallb (fun P => negb (veqb P v0)) (validated_points (op_degree_of 1) pf).
Lemma no_zero1_true pf : no_zero1 pf = true -> Forall (fun P => P <> v0) (validated_points (op_degree_of 1) pf).
Proof. intros H. apply Forall_forall. intros P HP. unfold no_zero1 in H. rewrite forallb_forall in H. specialize (H P HP). intros ->. rewrite veqb_refl in H. discriminate. Qed.
(* test data, no code modelled *)
Definition two_scalars (d1 d2 : Z) : list (F101 * F101) := [(z101 d1, z101 8); (z101 d2, z101 9)].
Lemma cl_gens8 n : (n <=? 8)%nat = true -> (n <= gens_capacity g101 < 2 ^ 32)%nat.
Proof. intros H. apply Nat.leb_le in H. destruct cl_gens as (_ & _ & H2). split; [|exact H2]. apply (Nat.le_trans _ 8); [exact H|apply Nat.leb_le; vm_compute; reflexivity]. Qed.
(** Values as in the tests at r1cs_vec.rs 188-192, 326-331, 471-476: the hypotheses hold, and
    the points of the proofs are not the identity. *)
Example C79_demo : gens_wf g101 /\ (8 <= gens_capacity g101 < 2 ^ 32)%nat /\ (forall tr lb, exists c tr', challenge_scalar cl_env tr lb = Some (c, tr') /\ c <> 0) /\ pcB pc101 <> v0 /\
  forall ds v circuit, In (ds, v, circuit) [(two_scalars 3 3, [], equal_circuit); (two_scalars 3 3, map z101 [1; 2; 3; 4; 5]%Z, equal_circuit); (two_scalars 37 37, map z101 [5; 5; 5; 15; 7]%Z, linear_circuit); ([], fib_vector 6, fib_circuit)] ->
    (next_power_of_two (length v) <= gens_capacity g101)%nat /\
    exists pf coms com, vec_prove cl_env true rnd101 pc101 g101 ds v (z101 6) circuit = Some (Ok (pf, coms, com)) /\ Forall (fun P => P <> v0) (validated_points (op_degree_of 1) pf).
Proof.
  split; [apply cl_gens|]. split; [apply cl_gens8; reflexivity|]. split; [apply cl_env_good|]. split; [apply (proj1 (veqb_false _ _)); vm_compute; reflexivity|].
  assert (H : forall ds v circuit, match vec_prove cl_env true rnd101 pc101 g101 ds v (z101 6) circuit with Some (Ok (pf, _, _)) => no_zero1 pf | _ => false end = true ->
    exists pf coms com, vec_prove cl_env true rnd101 pc101 g101 ds v (z101 6) circuit = Some (Ok (pf, coms, com)) /\ Forall (fun P => P <> v0) (validated_points (op_degree_of 1) pf)).
  { intros ds v circuit H. destruct (vec_prove _ _ _ _ _ _ _ _ _) as [[[[pf coms] com]|]|]; [|discriminate H|discriminate H]. exists pf, coms, com. split; [reflexivity|apply no_zero1_true, H]. }
  intros ds v circuit [e|[e|[e|[e|[]]]]]; injection e as <- <- <-; (split; [apply cl_gens8; vm_compute; reflexivity|]); apply H; vm_compute; reflexivity.
Qed.
(* test helper, no code modelled *)
Definition vec_accepts (ds : list (F101 * F101)) (v : list F101) (circuit : list Var -> list Var -> Prog F101 unit) : bool :=
  match vec_prove E101 true rnd101 pc101 g101 ds v (z101 6) circuit with
  | Some (Ok (pf, coms, com)) => match vec_verify E101 true (z101 7) pf pc101 g101 coms (length v) com circuit with Some (Ok _) => true | _ => false end
  | _ => false
  end.
(** The tests of the file and wrong values for each equation. *)
(* test data, no code modelled *)
Definition C79_value : list bool := Eval vm_compute in
  [vec_accepts (two_scalars 3 3) [] equal_circuit; vec_accepts (two_scalars 3 4) [] equal_circuit;
   vec_accepts (two_scalars 20 20) (map z101 [3; 3; 3; 9; 2]%Z) linear_circuit; vec_accepts (two_scalars 20 20) (map z101 [3; 3; 3; 8; 3]%Z) linear_circuit;
   vec_accepts (two_scalars 20 20) (map z101 [3; 4; 3; 10; 0]%Z) linear_circuit; vec_accepts (two_scalars 21 21) (map z101 [3; 3; 3; 9; 2]%Z) linear_circuit;
   vec_accepts (two_scalars 20 21) (map z101 [3; 3; 3; 9; 2]%Z) linear_circuit;
   vec_accepts [] (fib_vector 5) fib_circuit; vec_accepts [] (map z101 [1; 1; 2; 3; 6]%Z) fib_circuit; vec_accepts [] (map z101 [2; 2; 4; 6]%Z) fib_circuit].
Example C79_accept_test : C79_value = [true; false; true; false; false; false; false; true; false; false].
Proof. reflexivity. Qed.
Example C79_unconstrained_demo : gens_wf g101 /\ (1 <= gens_capacity g101 < 2 ^ 32)%nat /\ (forall tr lb, exists c tr', challenge_scalar cl_env tr lb = Some (c, tr') /\ c <> 0) /\
  (exists pf c1 c2, twice_prove cl_env true rnd101 pc101 g101 (z101 3) (z101 4) = Some (Ok (pf, c1, c2)) /\ Forall (fun P => P <> v0) (validated_points (op_degree_of 2) pf)) /\
  (exists pf com, separate_prove cl_env true rnd101 pc101 g101 (z101 3) (z101 4) (z101 5) = Some (Ok (pf, com)) /\ Forall (fun P => P <> v0) (validated_points (op_degree_of 1) pf)).
Proof.
  split; [apply cl_gens|]. split; [apply cl_gens|]. split; [apply cl_env_good|]. split.
  - assert (H : match twice_prove cl_env true rnd101 pc101 g101 (z101 3) (z101 4) with Some (Ok (pf, _, _)) => forallb (fun P => negb (veqb P v0)) (validated_points (op_degree_of 2) pf) | _ => false end = true) by (vm_compute; reflexivity).
    destruct (twice_prove _ _ _ _ _ _ _) as [[[[pf c1] c2]|]|]; [|discriminate H|discriminate H]. exists pf, c1, c2. split; [reflexivity|]. apply Forall_forall. intros P HP. rewrite forallb_forall in H. specialize (H P HP). intros ->. rewrite veqb_refl in H. discriminate.
  - assert (H : match separate_prove cl_env true rnd101 pc101 g101 (z101 3) (z101 4) (z101 5) with Some (Ok (pf, _)) => no_zero1 pf | _ => false end = true) by (vm_compute; reflexivity).
    destruct (separate_prove _ _ _ _ _ _ _ _) as [[[pf com]|]|]; [|discriminate H|discriminate H]. exists pf, com. split; [reflexivity|apply no_zero1_true, H].
Qed.
Example C80_exact_demo : gens_wf g101 /\ (4 <= gens_capacity g101 < 2 ^ 32)%nat /\ (forall tr lb, exists c tr', challenge_scalar cl_env tr lb = Some (c, tr') /\ c <> 0) /\ pcB pc101 <> v0 /\ (z101 7 : F101) <> 0 /\
  exists pf coms com, vec_prove cl_env true rnd101 pc101 g101 [] (map z101 [3; 4; 12]%Z) (z101 6) mul_circuit = Some (Ok (pf, coms, com)) /\ Forall (fun P => P <> v0) (validated_points (op_degree_of 1) pf).
Proof.
  split; [apply cl_gens|]. split; [apply cl_gens8; reflexivity|]. split; [apply cl_env_good|]. split; [apply (proj1 (veqb_false _ _)); vm_compute; reflexivity|]. split; [apply feqb_false; vm_compute; reflexivity|].
  assert (H : match vec_prove cl_env true rnd101 pc101 g101 [] (map z101 [3; 4; 12]%Z) (z101 6) mul_circuit with Some (Ok (pf, _, _)) => no_zero1 pf | _ => false end = true) by (vm_compute; reflexivity).
  destruct (vec_prove _ _ _ _ _ _ _ _ _) as [[[[pf coms] com]|]|]; [|discriminate H|discriminate H]. exists pf, coms, com. split; [reflexivity|apply no_zero1_true, H].
Qed.
(** 13 is not 3 times 4. *)
Example C80_refuted_demo : gens_wf g101 /\ (3 <= gens_capacity g101 < 2 ^ 32)%nat /\ (z101 3 : F101) <> 0 /\ (z101 13 : F101) <> z101 3 * z101 4 /\
  exists pf com, mul_forge E101 pc101 g101 rnd101 (z101 3) (z101 4) (z101 13) (z101 6) = Some (pf, com) /\ Forall (fun P => P <> v0) (validated_points (op_degree_of 1) pf).
Proof.
  split; [apply cl_gens|]. split; [apply cl_gens8; reflexivity|]. split; [apply feqb_false; vm_compute; reflexivity|]. split; [apply feqb_false; vm_compute; reflexivity|].
  assert (H : match mul_forge E101 pc101 g101 rnd101 (z101 3) (z101 4) (z101 13) (z101 6) with Some (pf, _) => no_zero1 pf | _ => false end = true) by (vm_compute; reflexivity).
  destruct (mul_forge _ _ _ _ _ _ _ _) as [[pf com]|]; [|discriminate H]. exists pf, com. split; [reflexivity|apply no_zero1_true, H].
Qed.
(* test helper, no code modelled *)
Definition mul_forged (a b c : Z) : bool :=
  match mul_forge E101 pc101 g101 rnd101 (z101 a) (z101 b) (z101 c) (z101 6) with
  | Some (pf, com) => match vec_verify E101 true (z101 7) pf pc101 g101 [] 3 com mul_circuit with Some (Ok _) => true | _ => false end
  | _ => false
  end.
(** The repo's prover is accepted for 3 * 4 = 12 and refused for 13, the cheating one is
    accepted for 13; with a first value of zero it fails. *)
(* test data, no code modelled *)
Definition C80_value : list bool := Eval vm_compute in
  [vec_accepts [] (map z101 [3; 4; 12]%Z) mul_circuit; vec_accepts [] (map z101 [3; 4; 13]%Z) mul_circuit; mul_forged 3 4 12; mul_forged 3 4 13; mul_forged 0 4 13].
Example C80_accept_test : C80_value = [true; false; true; true; false].
Proof. reflexivity. Qed.

(** The honest prover's proofs meet all hypotheses of the two soundness theorems except that
    the challenges are lucky; the coefficients of the prover are its points: the generators
    are the 18 unit vectors. *)
Section Units.
  Context {F : Field}.
  Add Field FFunits : (f_th F).
  Lemma units_id m (a : FreeV F m) : free_eval (V := FreeV F m) (map (unitv m) (seq 0 m)) a = a.
  Proof.
    rewrite free_eval_gsum by (rewrite map_length, seq_length; reflexivity). apply coord_ext. intros k Hk.
    rewrite (lin_gsum _ (coord_linear m k)). rewrite (fsum_single _ _ k Hk).
    - rewrite (lin_smul _ (coord_linear m k)), nth_map_seq, coord_unit, Nat.eqb_refl by exact Hk. ring.
    - intros i Hi Hne. rewrite (lin_smul _ (coord_linear m k)), nth_map_seq, coord_unit by exact Hi. destruct (Nat.eqb_spec k i) as [e|_]; [congruence|ring].
  Qed.
End Units.
(* test data, no code modelled *)
Definition W18 : VSpace F101 := FreeV F101 18.
(* test data, no code modelled *)
Definition E18 : TrEnv W18 := mkTrEnv (V := W18) (fun a => concat (map (enc_fp PM101) (proj1_sig a))) (enc_fp PM101) (challenge_bytes E101) (sha3_256 E101) (from_random_bytes E101).
(* test data, no code modelled *)
Definition pc18 : PedersenGens W18 := mkPC (V := W18) (unitv 18 0) (unitv 18 1).
(* test data, no code modelled *)
Definition g18 : BPGens W18 := mkBP (V := W18) 8 1 [map (unitv 18) (seq 2 8)] [map (unitv 18) (seq 10 8)].
(* test data, no code modelled *)
Definition gens18 : list W18 := generators pc18 (map (unitv 18) (seq 2 8)) (map (unitv 18) (seq 10 8)).
Lemma gens18_id (a : W18) : free_eval (V := W18) gens18 a = a. Proof. exact (units_id 18 a). Qed.
Lemma gens_wf18 : gens_wf g18 /\ share_G g18 0 8 = Some (map (unitv 18) (seq 2 8)) /\ share_H g18 0 8 = Some (map (unitv 18) (seq 10 8)).
Proof. split; [|split; reflexivity]. exists (map (unitv 18) (seq 2 8)), (map (unitv 18) (seq 10 8)). repeat split. Qed.
Lemma map18 : forall l : list W18, map (free_eval (V := W18) gens18) l = l.
Proof. intros l; rewrite <- (map_id l) at 2; apply map_ext; apply gens18_id. Qed.
Lemma proof18 (pf : R1CSProof W18) : map_proof (free_eval (V := W18) gens18) pf = pf.
Proof.
  destruct pf as [p1 p2 p3 p4 p5 p6 T tx txb eb [Ls Rs a b]]. unfold map_proof. cbn [A_I1 A_O1 S1 A_I2 A_O2 S2 pT pt_x pt_x_blinding pe_blinding pipp ipp_L ipp_R ipp_a ipp_b].
  rewrite !gens18_id, !map18. reflexivity.
Qed.
Lemma vstate18 (t2 : VState W18) : map_vstate (free_eval (V := W18) gens18) t2 = t2.
Proof.
  destruct t2 as [q1 q2 q3 q4 q5 q6 q7]. unfold map_vstate. cbn [v_tr v_cs v_vec v_num v_V v_def v_pend]. rewrite map18. f_equal.
  rewrite <- (map_id q3) at 2. apply map_ext. intros [c' d]. cbn [fst snd]. rewrite gens18_id. reflexivity.
Qed.
(* test helper, no code modelled *)
Definition vec18 (ds : list (F101 * F101)) (v : list F101) (circuit : list Var -> list Var -> Prog F101 unit) : option (Res (R1CSProof W18 * list W18 * W18)) :=
  vec_prove E18 true rnd6 pc18 g18 ds v (z101 6) circuit.
(* test helper, no code modelled *)
Definition vec18_check (ds : list (F101 * F101)) (v : list F101) (circuit : list Var -> list Var -> Prog F101 unit) : bool :=
  match vec18 ds v circuit with Some (Ok (pf, coms, com)) => match vec_statement E18 coms (length v) com circuit with Some t => match all_challenges E18 pf t with
  | Some (t2, (y, z, u, x, w), us) => (next_power_of_two (v_size t2) =? 8)%nat && (length (ipp_R (pipp pf)) =? length (ipp_L (pipp pf)))%nat &&
      match v_vec t2 with [(c, d)] => veqb c com && (d =? length v)%nat | _ => false end && list_same veqb (v_V t2) coms &&
      list_same feqb (map (fun i => on_G 8 i com) (seq 0 (length v))) v && list_same feqb (map (on_B 8) coms) (map fst ds) &&
      match vec_verify E18 true (z101 7) pf pc18 g18 coms (length v) com circuit with Some (Ok tt) => true | _ => false end
  | _ => false end | _ => false end | _ => false end.
Lemma vec18_true ds v circuit : vec18_check ds v circuit = true -> exists pf coms com t t2 y z u x w us, vec18 ds v circuit = Some (Ok (pf, coms, com)) /\
  let phi := free_eval (V := W18) gens18 in
  gens_wf g18 /\ v_V t2 = coms /\ v_vec t2 = [(com, length v)] /\ length (ipp_R (pipp pf)) = length (ipp_L (pipp pf)) /\
  next_power_of_two (v_size t2) = 8%nat /\ vec_statement E18 (map phi coms) (length v) (phi com) circuit = Some t /\
  all_challenges E18 (map_proof phi pf) t = Some (map_vstate phi t2, (y, z, u, x, w), us) /\
  vec_verify E18 true (z101 7) (map_proof phi pf) pc18 g18 (map phi coms) (length v) (phi com) circuit = Some (Ok tt) /\
  map (fun i => on_G 8 i com) (seq 0 (length v)) = v /\ map (on_B 8) coms = map fst ds.
Proof.
  unfold vec18_check. intros H. destruct (vec18 ds v circuit) as [[[[pf coms] com]|]|]; [|discriminate H|discriminate H]. destruct (vec_statement E18 coms (length v) com circuit) as [t|] eqn:Es; [|discriminate H].
  destruct (all_challenges E18 pf t) as [[[t2 [[[[y z] u] x] w]] us]|] eqn:Ec; [|discriminate H].
  apply andb_prop in H as [H H7]. apply andb_prop in H as [H H6]. apply andb_prop in H as [H H5]. apply andb_prop in H as [H H4]. apply andb_prop in H as [H H3]. apply andb_prop in H as [H1 H2].
  apply Nat.eqb_eq in H1, H2. apply (list_same_true _ (fun a b => proj1 (veqb_true a b))) in H4. apply (list_same_true _ (fun a b => proj1 (feqb_true a b))) in H5, H6.
  assert (H3' : v_vec t2 = [(com, length v)]).
  { destruct (v_vec t2) as [|[c d] [|? ?]]; [discriminate H3| |discriminate H3]. apply andb_prop in H3 as [A B]. apply veqb_true in A. apply Nat.eqb_eq in B. subst. reflexivity. }
  exists pf, coms, com, t, t2, y, z, u, x, w, us. split; [reflexivity|]. cbv zeta. rewrite proof18, vstate18, map18, gens18_id.
  split; [apply gens_wf18|]. split; [exact H4|]. split; [exact H3'|]. split; [exact H2|]. split; [exact H1|].
  split; [exact Es|]. split; [exact Ec|]. split; [|split; [exact H5|exact H6]].
  destruct (vec_verify _ _ _ _ _ _ _ _ _ _) as [[[]|]|]; [reflexivity|discriminate H7|discriminate H7].
Qed.
Example C79_sound_demo : vec18_check (two_scalars 37 37) (map z101 [5; 5; 5; 15; 7]%Z) linear_circuit = true /\ vec18_check [] (fib_vector 5) fib_circuit = true.
Proof. split; vm_compute; reflexivity. Qed.
