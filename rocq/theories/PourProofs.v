(** * Proofs about whole pours *)
From Verif Require Export CoinProofs.
From Verif Require Import CSProofs UtilProofs Lockstep CSMore R1CS R1CSSpec R1CSProofs R1CSVerif R1CSMain CSLogic GadgetProofs TreeProofs RerandMore SelSim PropsGadgets PropsSingle PropsRerand PropsSelRerand.
Local Open Scope F_scope.

(** ** Circuits only grow *)
Section Grow.
  Context {F : Field} {V : VSpace F} (E : TrEnv V).

  (* vocabulary of specifications and proofs, no code modelled *)
  Definition grows (t t' : VState V) : Prop := (v_num t <= v_num t')%nat /\ (exists vs, v_vec t' = v_vec t ++ vs) /\ incl (v_cs t) (v_cs t').
  Lemma grows_refl t : grows t t. Proof. split; [lia|]. split; [|apply incl_refl]. exists []. symmetry. apply app_nil_r. Qed.
  Lemma grows_trans t1 t2 t3 : grows t1 t2 -> grows t2 t3 -> grows t1 t3.
  Proof. intros (H1 & (vs & E1) & I1) (H2 & (ws & E2) & I2). split; [lia|]. split; [|eapply incl_tran; eassumption]. exists (vs ++ ws). rewrite E2, E1, app_assoc. reflexivity. Qed.
  Lemma vrun_grows {A} (p : Prog F A) t t' a : vrun E p t = Some (t', a) -> grows t t'.
  Proof.
    intros H. destruct (vrun_frame E _ _ _ _ _ H) as (E1 & _ & E2). destruct (vrun_cs E _ _ _ _ H) as (r & Hr). split; [exact E2|]. split; [exists []; rewrite E1, app_nil_r; reflexivity|].
    rewrite Hr. apply incl_appl, incl_refl.
  Qed.
  Lemma commit_grows t d c : grows t (fst (v_commit_vec E t d c)).
  Proof. split; [apply Nat.le_refl|]. split; [|apply incl_refl]. exists [(c, d)]. reflexivity. Qed.
  Lemma constrain_grows t lc : grows t (v_constrain t lc).
  Proof. split; [apply Nat.le_refl|]. split; [|apply incl_appl, incl_refl]. exists []. symmetry. apply app_nil_r. Qed.
  Lemma grows_nth t t' k x : grows t t' -> nth_error (v_vec t) k = Some x -> nth_error (v_vec t') k = Some x.
  Proof. intros (_ & (vs & E1) & _) H. rewrite E1, nth_error_app1; [exact H|]. apply nth_error_Some. rewrite H. discriminate. Qed.
  Lemma size_at_least (t : VState V) k : ((k <= v_num t)%nat \/ exists c, In (c, k) (v_vec t)) -> (k <= v_size t)%nat.
  Proof.
    unfold v_size. intros [H|(c & H)].
    - pose proof (fold_max_ge (v_vec t) (v_num t)). lia.
    - pose proof (fold_max_all (v_vec t) (v_num t)) as HF. rewrite Forall_forall in HF. exact (HF _ H).
  Qed.
  Lemma grows_size t t' : grows t t' -> (v_size t <= v_size t')%nat.
  Proof.
    intros (H1 & (vs & E1) & _). unfold v_size at 1. apply fold_max_le.
    - apply size_at_least. auto.
    - apply Forall_forall. intros [c d] Hin. apply size_at_least. right. exists c. rewrite E1. apply in_app_iff. auto.
  Qed.
  Lemma level_grows t lv t' : verify_level E t lv = Some t' -> grows t t'.
  Proof.
    unfold verify_level. destruct (vl_src lv) as [xs|[d c]].
    - destruct (vrun E _ t) as [[t1 a]|] eqn:R; [|discriminate]. cbn [opt_bind fst]. intros H. apply Some_inj in H. subst. eapply vrun_grows; exact R.
    - destruct (vrun E _ (fst (v_commit_vec E t d c))) as [[t1 a]|] eqn:R; [|discriminate]. cbn [opt_bind fst]. intros H. apply Some_inj in H. subst. eapply grows_trans; [apply commit_grows|]. eapply vrun_grows; exact R.
  Qed.
  Lemma levels_grow lvs : forall t t', verify_levels E t lvs = Some t' -> grows t t'.
  Proof.
    induction lvs as [|lv lvs IH]; intros t t' H; cbn [verify_levels] in H; [apply Some_inj in H; subst; apply grows_refl|].
    destruct (verify_level E t lv) as [t1|] eqn:E1; [|discriminate]. cbn [opt_bind] in H. eapply grows_trans; [eapply level_grows; exact E1|]. apply IH, H.
  Qed.
  Lemma select_loop_num x xs : forall p t t' a, vrun E (select_loop x p xs) t = Some (t', a) -> v_num t' = (v_num t + length xs)%nat.
  Proof.
    induction xs as [|y xs IH]; intros p t t' a H; cbn [select_loop vrun] in H.
    - apply Some_inj in H. injection H as <- _. cbn. lia.
    - destruct (v_multiply t p (lc_sub y x)) as [t1 [[l r] o]] eqn:Em. apply IH in H. rewrite H. unfold v_multiply in Em.
      assert (v_num t1 = Datatypes.S (v_num t)) by (injection Em as <- _ _ _; reflexivity). cbn [length]. lia.
  Qed.
  Lemma select_num x xs (t : VState V) t' a : vrun E (select x xs) t = Some (t', a) -> (v_num t + length xs = v_num t' + 1)%nat.
  Proof. destruct xs as [|y xs]; cbn [select]; [discriminate|]. intros H. apply select_loop_num in H. cbn [length]. lia. Qed.
  Lemma range_loop_num dbg n : forall i e v t t' r, vrun E (range_loop dbg None n i e v) t = Some (t', r) -> v_num t' = (v_num t + n)%nat.
  Proof.
    induction n as [|n IH]; intros i e v t t' r H; cbn [range_loop vrun] in H.
    - apply Some_inj in H. injection H as <- _. cbn. lia.
    - unfold v_allocate_multiplier in H. cbn [vrun] in H. apply IH in H. rewrite H. cbn. lia.
  Qed.
  Lemma range_num dbg n v t t' r : vrun E (range_proof dbg v None n) t = Some (t', r) -> v_num t' = (v_num t + n)%nat.
  Proof. unfold range_proof. apply range_loop_num. Qed.
End Grow.
Section GrowCurve.
  Context {F S : PField} {C : SWCurve F S} {V : VSpace F} (E : TrEnv V).
  Lemma single_level_num enc (sl : SLParams C) ch vars t t' a : vrun E (single_level enc sl ch vars None None) t = Some (t', a) -> (v_num t + length vars <= v_num t' + 1)%nat.
  Proof.
    unfold single_level. rewrite vrun_bind. destruct (vrun E (single_level_from _ _ _ _ _ _ _ _) t) as [[t1 b]|] eqn:R; [|discriminate]. cbn [vrun]. intros H. apply Some_inj in H. injection H as <- _.
    unfold single_level_from, palloc in R. cbn [vrun option_map] in R.
    match type of R with context [v_allocate ?s ?o] => destruct (v_allocate s o) as [t2 [x|]] eqn:Ea; [|discriminate R]; assert (Hn : (v_num t <= v_num t2)%nat) end.
    { unfold v_allocate in Ea. cbn in Ea. destruct (v_pend t); injection Ea as <- _; cbn; lia. }
    rewrite vrun_bind in R. destruct (vrun E (select (lc_var x) vars) t2) as [[t3 u]|] eqn:Rs; [|discriminate R].
    apply select_num in Rs. match type of R with vrun _ ?p _ = _ => pose proof (proj1 (vrun_grows E p _ _ _ R)) end. lia.
  Qed.
End GrowCurve.

Section Pour.
  Context {F0 F1 : PField} {P0 : SWCurve F1 F0} {P1 : SWCurve F0 F1} {FC : Field} {C : VSpace FC}.
  Variables (E0 : TrEnv P0) (E1 : TrEnv P1) (enc0 : P0 -> bytes) (enc1 : P1 -> bytes).
  Variables (sg : SigScheme FC C) (enc_pk : C -> bytes) (enc_sc : FC -> bytes) (sha3 : bytes -> bytes).
  Add Field FFpour : (f_th F0).

  Lemma even_size_along L prm (t : CurveTree P0 P1) root d evens odds leaf p p' t0 t0' :
    t_commitment t 0 = Some root -> t_opens L 0 d prm root evens odds leaf -> root_public prm t 0 evens odds -> (2 <= d)%nat -> verification_commitments t p = Some p' -> (length (pa_even p') + length (pa_odd p') = d)%nat ->
    (1 <= v_num t0)%nat -> even_gadget E0 enc1 L prm t p' t0 = Some t0' -> (L <= v_size t0')%nat.
  Proof.
    intros Hr Ho Hpub Hh Hvc Hlen Hn He.
    unfold verification_commitments in Hvc. unfold even_gadget, root_is_odd in He. destruct t as [ct|ct]; unfold guard in Hvc.
    - destruct (Nat.eqb_spec (length (pa_even p) + 1) (length (pa_odd p))) as [Hl|]; [|discriminate Hvc]. cbn [t_commitment] in Hr. destruct (n_commitment ct 0) as [c|]; [|discriminate Hvc]. cbn [opt_bind] in Hvc. apply Some_inj in Hvc. subst p'. cbn [pa_even pa_odd length] in *.
      destruct (Nat.eqb_spec (Datatypes.S (length (pa_even p)) + 1) (length (pa_odd p))) as [Hx|_]; [lia|]. destruct (Nat.eqb_spec (Datatypes.S (length (pa_even p))) (length (pa_odd p))) as [_|Hx]; [|lia]. cbn [guard opt_bind] in He.
      destruct Hpub as (w0 & Hw0 & Hxs). apply Some_inj in Hr. subst root. cbn [t_opens] in Ho. destruct (proj1 (opens_index _ _ _ _ _ _ _ _ _ _ _ _ _ Ho) _ _ Hw0) as (q & _ & HL & _).
      unfold even_levels in He. cbn [pa_even pa_odd imap all_some Nat.eqb andb negb] in He. rewrite Hxs in He. cbn [option_map opt_bind] in He. destruct (nth_error (pa_odd p) 0) as [ch|]; [|discriminate He]. cbn [opt_bind] in He.
      destruct (all_some _) as [lvs|]; [|discriminate He]. cbn [opt_bind verify_levels] in He. destruct (verify_level E0 t0 _) as [t1|] eqn:Ev; [|discriminate He]. cbn [opt_bind] in He.
      unfold verify_level in Ev. cbn [vl_src vl_gadget] in Ev. destruct (vrun E0 _ t0) as [[t2 a]|] eqn:R; [|discriminate Ev]. cbn [opt_bind fst] in Ev. apply Some_inj in Ev. subst t2.
      apply single_level_num in R. rewrite map_length, HL in R. apply levels_grow, proj1 in He. apply size_at_least. left. lia.
    - destruct (Nat.eqb_spec (length (pa_even p)) (length (pa_odd p))) as [Hl|]; [|discriminate Hvc]. destruct (n_commitment ct 0) as [c|]; [|discriminate Hvc]. cbn [opt_bind] in Hvc. apply Some_inj in Hvc. subst p'. cbn [pa_even pa_odd length] in *.
      destruct (Nat.eqb_spec (length (pa_even p) + 1) (Datatypes.S (length (pa_odd p)))) as [_|Hx]; [|lia]. cbn [opt_bind] in He.
      destruct (pa_even p) as [|e0 es] eqn:Ee; [cbn in *; lia|]. unfold even_levels in He. cbn [pa_even pa_odd imap all_some Nat.eqb andb negb] in He. cbn [opt_bind] in He.
      destruct (nth_error _ (0 + 1)) as [ch|]; [|discriminate He]. cbn [opt_bind] in He.
      destruct (all_some _) as [lvs|]; [|discriminate He]. cbn [opt_bind verify_levels] in He. destruct (verify_level E0 t0 _) as [t1|] eqn:Ev; [|discriminate He]. cbn [opt_bind] in He.
      unfold verify_level in Ev. cbn [vl_src vl_gadget] in Ev. destruct (vrun E0 _ _) as [[t2 a]|] eqn:R; [|discriminate Ev]. cbn [opt_bind fst] in Ev. apply Some_inj in Ev. subst t2.
      apply vrun_grows, grows_size in R. apply levels_grow, grows_size in He. eapply Nat.le_trans; [|exact He]. eapply Nat.le_trans; [|exact R]. apply size_at_least. right. exists e0. cbn [v_commit_vec fst v_vec]. apply in_app_iff. right. left. reflexivity.
  Qed.
  Lemma even_size oc L M prm set fuel height t index evens odds p p' t0 t0' :
    from_set fuel L M prm set height = TOk t -> (N.of_nat (L ^ t_height t) < 2 ^ 64)%N -> (0 < M)%nat -> (2 <= t_height t)%nat ->
    tree_witness oc L t index 0 prm = Some (evens, odds) -> verification_commitments t p = Some p' -> (length (pa_even p') + length (pa_odd p') = t_height t)%nat ->
    (1 <= v_num t0)%nat -> even_gadget E0 enc1 L prm t p' t0 = Some t0' -> (L <= v_size t0')%nat.
  Proof.
    intros Ht Hc HM Hh Hw Hvc Hlen Hn He.
    destruct (tree_prove_opens L M prm set fuel height t oc index 0 evens odds Ht Hc HM Hw) as (leaf & root & _ & Hr & Ho).
    eapply even_size_along; try eassumption. exact (tree_witness_root _ _ _ _ _ _ _ _ Hw ltac:(lia)).
  Qed.
  Lemma mint_num dbg c t t' v : verify_mint E0 dbg c t = Some (t', v) -> (v_num t' = v_num t + 64)%nat.
  Proof.
    unfold verify_mint. destruct (v_commit_vec E0 t 2 c) as [t1 us] eqn:Ec. assert (Hn : v_num t1 = v_num t) by (unfold v_commit_vec in Ec; injection Ec as <- _; reflexivity).
    destruct (nth_error us 0) as [v'|]; [|discriminate]. cbn [opt_bind]. destruct (vrun E0 _ t1) as [[t2 res]|] eqn:R; [|discriminate]. cbn [opt_bind]. destruct res; [|discriminate]. intros H. apply Some_inj in H. injection H as <- _.
    apply range_num in R. lia.
  Qed.
  Lemma spend_grows d L prm t pk p t0 t0' v : spend_dim E0 enc1 enc_pk sha3 d L prm t pk p t0 = Some (t0', v) -> exists t1, even_gadget E0 enc1 L prm t p t0 = Some t1 /\ grows t0 t1 /\ grows t1 t0'.
  Proof.
    unfold spend_dim. destruct (even_gadget E0 enc1 L prm t p t0) as [t1|] eqn:Eg; [|discriminate]. cbn [opt_bind]. pose proof (commit_grows E0 t1 d (pa_selected p)) as Hg. destruct (v_commit_vec E0 t1 d (pa_selected p)) as [t2 us]. cbn [fst] in Hg.
    destruct (nth_error us 1) as [v1|]; [|discriminate]. cbn [opt_bind]. destruct (nth_error us 0) as [v2|]; [|discriminate]. cbn [opt_bind]. intros H. apply Some_inj in H. injection H as <- _. exists t1. split; [reflexivity|]. split.
    - unfold even_gadget in Eg. destruct (root_is_odd p); [|discriminate Eg]. cbn [opt_bind] in Eg. destruct (even_levels enc1 L prm t p b) as [lvs|]; [|discriminate Eg]. cbn [opt_bind] in Eg. eapply levels_grow, Eg.
    - eapply grows_trans; [exact Hg|apply constrain_grows].
  Qed.

  Lemma mint_vec dbg c t t' v : verify_mint E0 dbg c t = Some (t', v) -> v_vec t' = v_vec t ++ [(c, 2%nat)].
  Proof.
    unfold verify_mint. destruct (v_commit_vec E0 t 2 c) as [t1 us] eqn:Ec. assert (Hn : v_vec t1 = v_vec t ++ [(c, 2%nat)]) by (unfold v_commit_vec in Ec; injection Ec as <- _; reflexivity).
    destruct (nth_error us 0) as [v'|]; [|discriminate]. cbn [opt_bind]. destruct (vrun E0 _ t1) as [[t2 res]|] eqn:R; [|discriminate]. cbn [opt_bind]. destruct res; [|discriminate]. intros H. apply Some_inj in H. injection H as <- _.
    destruct (vrun_frame E0 _ _ _ _ _ R) as (-> & _). exact Hn.
  Qed.
  Lemma spend_small d L prm t pk p t0 t0' v : spend_dim E0 enc1 enc_pk sha3 d L prm t pk p t0 = Some (t0', v) -> pa_even p = [] -> v_num t0' = v_num t0 /\ v_vec t0' = v_vec t0 ++ [(pa_selected p, d)].
  Proof.
    unfold spend_dim, even_gadget, even_levels. intros H He. rewrite He in H. destruct (root_is_odd p) as [od|]; [|discriminate H]. cbn [opt_bind imap all_some verify_levels] in H.
    destruct (v_commit_vec E0 t0 d (pa_selected p)) as [t1 us] eqn:Ec. assert (Hn : v_vec t1 = v_vec t0 ++ [(pa_selected p, d)] /\ v_num t1 = v_num t0) by (unfold v_commit_vec in Ec; injection Ec as <- _; split; reflexivity).
    destruct (nth_error us 1) as [v1|]; [|discriminate H]. cbn [opt_bind] in H. destruct (nth_error us 0) as [v2|]; [|discriminate H]. cbn [opt_bind] in H. apply Some_inj in H. injection H as <- _. split; apply Hn.
  Qed.
  Lemma spend_dim_vec d L prm t pk p t0 t0' v : spend_dim E0 enc1 enc_pk sha3 d L prm t pk p t0 = Some (t0', v) -> exists q, In (q, d) (v_vec t0').
  Proof.
    unfold spend_dim. destruct (even_gadget _ _ _ _ _ _ _) as [te|]; [|discriminate]. cbn [opt_bind]. destruct (v_commit_vec E0 te d (pa_selected p)) as [t1 us] eqn:Ec.
    assert (Hn : v_vec t1 = v_vec te ++ [(pa_selected p, d)]) by (unfold v_commit_vec in Ec; injection Ec as <- _; reflexivity).
    destruct (nth_error us 1) as [v1|]; [|discriminate]. cbn [opt_bind]. destruct (nth_error us 0) as [v2|]; [|discriminate]. cbn [opt_bind]. intros H. apply Some_inj in H. injection H as <- _.
    exists (pa_selected p). cbn. rewrite Hn. apply in_or_app. right. left. reflexivity.
  Qed.
  Lemma height_one_path (t : CurveTree P0 P1) p p' : verification_commitments t p = Some p' -> (length (pa_even p') + length (pa_odd p') = 1)%nat -> pa_even p' = [].
  Proof.
    unfold verification_commitments, guard. destruct t as [ct|ct].
    - destruct (Nat.eqb_spec (length (pa_even p) + 1) (length (pa_odd p))) as [Hl|]; [|discriminate]. destruct (n_commitment ct 0); [|discriminate]. cbn [opt_bind]. intros H. apply Some_inj in H. subst p'. cbn. lia.
    - destruct (Nat.eqb_spec (length (pa_even p)) (length (pa_odd p))) as [Hl|]; [|discriminate]. destruct (n_commitment ct 0); [|discriminate]. cbn [opt_bind]. intros H. apply Some_inj in H. subst p'. cbn.
      destruct (pa_even p); [reflexivity|cbn in *; lia].
  Qed.

  (** ** Honest participants *)

  (** A coin made by [Coin::new] for some key, stored at a position of the set, with the
      re-randomized key belonging to it and admissible scalars for the path. *)
  Definition honest_input (oc : bool) (L : nat) (prm : SRParams P0 P1) (set : list P0) (t : CurveTree P0 P1) (i : Spending (F0 := F0) (F1 := F1) C) : Prop :=
    exists k leaf pk evens odds,
      sp_index i = N.of_nat k /\ nth_error set k = Some leaf /\
      coin_new sg enc_pk enc_sc sha3 (even_p prm) (co_value (sp_coin i)) pk (co_pk_randomness (sp_coin i)) (co_blinding (sp_coin i)) = Some (sp_coin i, leaf) /\
      rerandomized_pk sg enc_sc pk (co_pk_randomness (sp_coin i)) = Some (sp_pk i) /\
      tree_witness oc L t (N.of_nat k) 0 prm = Some (evens, odds) /\
      (forall j w, nth_error evens j = Some w -> admissible (odd_p prm) (w_child w) (sp_os i j)) /\
      (forall j w, nth_error odds j = Some w -> admissible (even_p prm) (w_child w) (sp_es i j)).
  (** The receiver's key can be re-randomized and there are generators for two values. *)
  Definition honest_mint (prm : SRParams P0 P1) (m : Minting (F0 := F0) C) : Prop :=
    (mi_value m < 2 ^ 64)%N /\ exists coin c, coin_new sg enc_pk enc_sc sha3 (even_p prm) (mi_value m) (mi_pk m) (mi_pkr m) (mi_blinding m) = Some (coin, c).

  Notation pour_circuits := (pour_circuits E0 E1 enc0 enc1 sg enc_pk enc_sc sha3).
  Lemma honest_tag oc L prm set t i : honest_input oc L prm set t i -> co_tag (sp_coin i) = pk_to_scalar enc_pk sha3 (sp_pk i).
  Proof. intros (k & leaf & pk & evens & odds & _ & _ & Hn & Hr & _). destruct (coin_new_spec sg enc_pk enc_sc sha3 _ _ _ _ _ _ _ Hn) as (rpk & Hr' & -> & _). cbn. congruence. Qed.

  Lemma pour_total dbg oc L M prm set fuel height t i0 i1 m0 m1 s0 s1 :
    sl_good (even_p prm) -> sl_good (odd_p prm) -> sw_a P0 = 0 -> sw_a P1 = 0 ->
    from_set fuel L M prm set height = TOk t -> (N.of_nat (L ^ t_height t) < 2 ^ 64)%N -> (0 < M)%nat -> t_height t <> 0%nat ->
    honest_input oc L prm set t i0 -> honest_input oc L prm set t i1 -> honest_mint prm m0 -> honest_mint prm m1 ->
    (mi_value m0 + mi_value m1 = co_value (sp_coin i0) + co_value (sp_coin i1))%N ->
    honest s0 -> honest s1 ->
    exists s0' s1' out, pour_circuits dbg oc L (sl_pc (even_p prm)) (sl_pc (odd_p prm)) prm t i0 i1 m0 m1 s0 s1 = Some (s0', s1', out) /\
      honest s0' /\ honest s1' /\ p_def s0' = p_def s0 /\ p_def s1' = p_def s1.
  Proof.
    intros Hg0 Hg1 Ha0 Ha1 Ht Hc HM Hh (k0 & leaf0 & pk0 & ev0 & od0 & I0 & N0 & C0 & _ & W0 & A0 & B0) (k1 & leaf1 & pk1 & ev1 & od1 & I1 & N1 & C1 & _ & W1 & A1 & B1) (V0 & coin0 & c0 & M0) (V1 & coin1 & c1 & M1) Hbal Hh0 Hh1.
    unfold Coin.pour_circuits, mint_of, spend_of.
    destruct (mint_total E0 sg enc_pk enc_sc sha3 dbg (even_p prm) _ _ _ _ _ _ s0 Hh0 M0 V0) as (u1 & v1 & R1 & Q1 & K1 & S1 & E1' & D1). rewrite R1. cbn [opt_bind].
    destruct (mint_total E0 sg enc_pk enc_sc sha3 dbg (even_p prm) _ _ _ _ _ _ u1 Q1 M1 V1) as (u2 & v2 & R2 & Q2 & K2 & S2 & E2' & D2). rewrite R2. cbn [opt_bind].
    rewrite I0. destruct (spend_total E0 E1 enc0 enc1 sg enc_pk enc_sc sha3 oc L M prm set fuel height t k0 leaf0 ev0 od0 (sp_os i0) (sp_es i0) u2 s1 _ _ _ _ _ Hg0 Hg1 Ha0 Ha1 Ht Hc HM Hh N0 W0 A0 B0 C0 Q2 Hh1) as (u3 & w3 & p0 & v3 & R3 & Q3 & Q3' & K3 & K3' & S3 & E3' & D3 & D3'). rewrite R3. cbn [opt_bind].
    rewrite I1. destruct (spend_total E0 E1 enc0 enc1 sg enc_pk enc_sc sha3 oc L M prm set fuel height t k1 leaf1 ev1 od1 (sp_os i1) (sp_es i1) u3 w3 _ _ _ _ _ Hg0 Hg1 Ha0 Ha1 Ht Hc HM Hh N1 W1 A1 B1 C1 Q3 Q3') as (u4 & w4 & p1 & v4 & R4 & Q4 & Q4' & K4 & K4' & S4 & E4' & D4 & D4'). rewrite R4. cbn [opt_bind].
    destruct (K4 _ S3) as [S3' V3']. destruct (keeps_trans _ _ _ K3 K4 _ S2) as [S2' V2']. destruct (keeps_trans _ _ _ K2 (keeps_trans _ _ _ K3 K4) _ S1) as [S1' V1'].
    destruct (constrain_honest (n := 0) u4 (balance v1 v2 v3 v4)) as [Hh3 Hk3]; [exact Q4| | |].
    { unfold balance. repeat apply lc_ok_sub_lc; try (apply lc_ok_add); apply lc_ok_var; assumption. }
    { unfold balance. rewrite !lc_val_sub, lc_val_add, !lc_val_var. rewrite V1', V2', V3', E1', E2', E3', E4'.
      assert (Hb : (fN (mi_value m0) + fN (mi_value m1) : F0) = fN (co_value (sp_coin i0)) + fN (co_value (sp_coin i1))) by (rewrite <- !fN_add; f_equal; exact Hbal). 
      transitivity ((fN (mi_value m0) + fN (mi_value m1) : F0) - (fN (co_value (sp_coin i0)) + fN (co_value (sp_coin i1)))); [ring|]. rewrite Hb. ring. }
    eexists _, w4, _. split; [reflexivity|]. split; [exact Hh3|]. split; [exact Q4'|]. split; [cbn; congruence|congruence].
  Qed.

  (** [pour_even_circuit] with dimension [d] instead of [L] for the coins *)
  Definition pour_dim (d : nat) (dbg : bool) (L : nat) (prm : SRParams P0 P1) (t : CurveTree P0 P1) (c0 c1 : P0) (pk0 pk1 : C) (p0 p1 : Path P0 P1) (t0 : VState P0) : option (VState P0) :=
    do (t0, mv0) <- verify_mint E0 dbg c0 t0;
    do (t0, mv1) <- verify_mint E0 dbg c1 t0;
    do (t0, iv0) <- spend_dim E0 enc1 enc_pk sha3 d L prm t pk0 p0 t0;
    do (t0, iv1) <- spend_dim E0 enc1 enc_pk sha3 d L prm t pk1 p1 t0;
    Some (v_constrain t0 (balance mv0 mv1 iv0 iv1)).

  Lemma pour_lockstep dbg oc L M prm set fuel height t i0 i1 m0 m1 tr0 tr1 s0 s1 (t0 : VState P0) (t1 : VState P1) s0' s1' p0 p1 c0 c1 :
    sl_good (even_p prm) -> sl_good (odd_p prm) ->
    from_set fuel L M prm set height = TOk t -> (N.of_nat (L ^ t_height t) < 2 ^ 64)%N -> (0 < M)%nat -> t_height t <> 0%nat ->
    co_tag (sp_coin i0) = pk_to_scalar enc_pk sha3 (sp_pk i0) -> co_tag (sp_coin i1) = pk_to_scalar enc_pk sha3 (sp_pk i1) ->
    session E0 (sl_pc (even_p prm)) (sl_bp (even_p prm)) tr0 s0 t0 -> session E1 (sl_pc (odd_p prm)) (sl_bp (odd_p prm)) tr1 s1 t1 ->
    pour_circuits dbg oc L (sl_pc (even_p prm)) (sl_pc (odd_p prm)) prm t i0 i1 m0 m1 s0 s1 = Some (s0', s1', (p0, p1, c0, c1)) ->
    exists p0' p1' t0' t1', verification_commitments t p0 = Some p0' /\ verification_commitments t p1 = Some p1' /\
      pour_dim 2 dbg L prm t c0 c1 (sp_pk i0) (sp_pk i1) p0' p1' t0 = Some t0' /\
      pour_odd_circuit E1 enc0 L prm t p0' p1' t1 = Some t1' /\
      session E0 (sl_pc (even_p prm)) (sl_bp (even_p prm)) tr0 s0' t0' /\ session E1 (sl_pc (odd_p prm)) (sl_bp (odd_p prm)) tr1 s1' t1' /\
      ((128 <= v_size t0')%nat /\ ((2 <= t_height t)%nat -> (L <= v_size t0')%nat)) /\ (t_height t = 1%nat -> v_num t0 = 0%nat -> v_vec t0 = [] -> v_size t0' = 128%nat).
  Proof.
    intros Hg0 Hg1 Ht Hc HM Hh T0 T1 Hs0 Hs1. unfold Coin.pour_circuits, mint_of, spend_of, pour_dim, pour_odd_circuit.
    destruct (coin_mint _ _ _ _ _ _ _ _ (mi_value m0) _ _ _ s0) as [[u1 [[x0 c0'] v1]]|] eqn:R1; [|discriminate]. cbn [opt_bind].
    destruct (mint_lockstep _ _ _ _ _ _ _ _ _ _ _ _ _ _ _ _ _ _ Hs0 R1) as (t2 & V2 & Hs2).
    destruct (coin_mint _ _ _ _ _ _ _ _ (mi_value m1) _ _ _ u1) as [[u2 [[x1 c1'] v2]]|] eqn:R2; [|discriminate]. cbn [opt_bind].
    destruct (mint_lockstep _ _ _ _ _ _ _ _ _ _ _ _ _ _ _ _ _ _ Hs2 R2) as (t3 & V3 & Hs3).
    destruct (prove_spend _ _ _ _ oc L (sp_coin i0) (sp_index i0) _ _ _ _ _ _ u2 s1) as [[[u3 w3] [q0 v3]]|] eqn:R3; [|discriminate]. cbn [opt_bind].
    destruct (spend_lockstep E0 E1 enc0 enc1 enc_pk sha3 oc L M prm set fuel height t _ _ _ _ _ _ _ _ _ _ _ _ _ _ _ Hg0 Hg1 Ht Hc HM Hh T0 Hs3 Hs1 R3) as (p0' & t4 & y4 & Hp0 & V4 & O4 & L4 & Hs4 & Hy4).
    destruct (prove_spend _ _ _ _ oc L (sp_coin i1) (sp_index i1) _ _ _ _ _ _ u3 w3) as [[[u4 w4] [q1 v4]]|] eqn:R4; [|discriminate]. cbn [opt_bind].
    destruct (spend_lockstep E0 E1 enc0 enc1 enc_pk sha3 oc L M prm set fuel height t _ _ _ _ _ _ _ _ _ _ _ _ _ _ _ Hg0 Hg1 Ht Hc HM Hh T1 Hs4 Hy4 R4) as (p1' & t5 & y5 & Hp1 & V5 & O5 & L5 & Hs5 & Hy5).
    intros H. apply Some_inj in H. injection H as <- <- <- <- <- <-.
    eexists p0', p1', _, y5. split; [exact Hp0|]. split; [exact Hp1|]. rewrite V2. cbn [opt_bind]. rewrite V3. cbn [opt_bind]. rewrite V4. cbn [opt_bind]. rewrite V5. cbn [opt_bind]. split; [reflexivity|].
    rewrite O4. cbn [opt_bind]. split; [exact O5|]. split; [apply constrain_session; exact Hs5|]. split; [exact Hy5|].
    destruct (spend_grows _ _ _ _ _ _ _ _ _ V4) as (g4 & G4 & G4a & G4b), (spend_grows _ _ _ _ _ _ _ _ _ V5) as (g5 & G5 & G5a & G5b).
    pose proof (mint_num _ _ _ _ _ V2) as Z2. pose proof (mint_num _ _ _ _ _ V3) as Z3. pose proof (proj1 (grows_trans _ _ _ G4a (grows_trans _ _ _ G4b (grows_trans _ _ _ G5a G5b)))) as Hn. split; [split|].
    - apply size_at_least. left. cbn. lia.
    - intros Hh2. unfold Coin.prove_spend, tree_prove in R3. destruct (tree_witness oc L t _ 0 prm) as [[evens odds]|] eqn:Hw; [|discriminate R3].
      assert (Z1 : (1 <= v_num t3)%nat) by lia. pose proof (even_size oc L M prm set fuel height t _ evens odds _ _ _ _ Ht Hc HM Hh2 Hw Hp0 L4 Z1 G4) as HL. eapply Nat.le_trans; [exact HL|].
      apply grows_size. exact (grows_trans _ _ _ G4b (grows_trans _ _ _ G5a (grows_trans _ _ _ G5b (constrain_grows _ _)))).
    - intros Hh1 Hz Hvz. rewrite Hh1 in L4, L5. pose proof (mint_vec _ _ _ _ _ V2) as Y2. pose proof (mint_vec _ _ _ _ _ V3) as Y3.
      destruct (spend_small _ _ _ _ _ _ _ _ _ V4 (height_one_path _ _ _ Hp0 L4)) as (X4 & Y4), (spend_small _ _ _ _ _ _ _ _ _ V5 (height_one_path _ _ _ Hp1 L5)) as (X5 & Y5).
      unfold v_size. cbn [v_constrain v_vec v_num]. rewrite Y5, Y4, Y3, Y2, Hvz, X5, X4, Z3, Z2, Hz. reflexivity.
  Qed.
  Lemma pour_wider D d d' dbg L prm t c0 c1 pk0 pk1 p0 p1 t0 t0' t1' : wider D t0 t0' -> (d' <= d <= Nat.max d' D)%nat ->
    pour_dim d' dbg L prm t c0 c1 pk0 pk1 p0 p1 t0' = Some t1' -> exists t1, pour_dim d dbg L prm t c0 c1 pk0 pk1 p0 p1 t0 = Some t1 /\ wider D t1 t1'.
  Proof.
    intros Hw Hd. unfold pour_dim.
    destruct (verify_mint E0 dbg c0 t0') as [[a1' v1]|] eqn:R1; [|discriminate]. destruct (mint_wider _ D _ _ _ _ _ _ Hw R1) as (a1 & -> & W1). cbn [opt_bind].
    destruct (verify_mint E0 dbg c1 a1') as [[a2' v2]|] eqn:R2; [|discriminate]. destruct (mint_wider _ D _ _ _ _ _ _ W1 R2) as (a2 & -> & W2). cbn [opt_bind].
    destruct (spend_dim _ _ _ _ d' L prm t pk0 p0 a2') as [[a3' v3]|] eqn:R3; [|discriminate]. destruct (spend_wider _ _ _ _ D d d' _ _ _ _ _ _ _ _ _ W2 Hd R3) as (a3 & -> & W3). cbn [opt_bind].
    destruct (spend_dim _ _ _ _ d' L prm t pk1 p1 a3') as [[a4' v4]|] eqn:R4; [|discriminate]. destruct (spend_wider _ _ _ _ D d d' _ _ _ _ _ _ _ _ _ W3 Hd R4) as (a4 & -> & W4). cbn [opt_bind].
    intros H. apply Some_inj in H. subst t1'. eexists. split; [reflexivity|]. apply constrain_wider, W4.
  Qed.

  (** ** What a satisfied pour circuit says *)
  Lemma mint_sound dbg c t t' v : verify_mint E0 dbg c t = Some (t', v) ->
    v = VectorCommit (length (v_vec t)) 0 /\ nth_error (v_vec t') (length (v_vec t)) = Some (c, 2%nat) /\ length (v_vec t') = Datatypes.S (length (v_vec t)) /\ grows t t' /\
    forall w cs, incl (v_cs t') cs -> satisfies w cs -> exists a, (a < 2 ^ 64)%N /\ w v = fN a.
  Proof.
    unfold verify_mint. pose proof (commit_grows E0 t 2 c) as Hg. pose proof (commit_vars E0 t 2 c) as U. assert (Hv : v_vec (fst (v_commit_vec E0 t 2 c)) = v_vec t ++ [(c, 2%nat)]) by reflexivity.
    destruct (v_commit_vec E0 t 2 c) as [t1 us]. cbn [fst snd] in *. subst us. cbn [map seq nth_error opt_bind].
    destruct (vrun E0 _ t1) as [[t2 res]|] eqn:R; [|discriminate]. cbn [opt_bind]. destruct res as [u|]; [|discriminate]. intros H. apply Some_inj in H. injection H as <- <-.
    pose proof (vrun_grows E0 _ _ _ _ R) as Hg2. destruct (vrun_frame E0 _ _ _ _ _ R) as (Ev & _). rewrite Ev, Hv. split; [reflexivity|]. split; [rewrite nth_error_app2, Nat.sub_diag by lia; reflexivity|]. split; [rewrite app_length; cbn; lia|].
    split; [eapply grows_trans; eassumption|]. intros w cs Hi Hs. destruct (C27_range_sound _ _ _ _ _ _ _ _ _ _ _ _ R Hi Hs) as (a & Ha & Hw). exists a. split; [exact Ha|]. rewrite lc_val_var in Hw. exact Hw.
  Qed.
  Lemma spend_sound d L prm t pk p t0 t0' v : spend_dim E0 enc1 enc_pk sha3 d L prm t pk p t0 = Some (t0', v) ->
    exists k, (length (v_vec t0) <= k)%nat /\ length (v_vec t0') = Datatypes.S k /\ v = VectorCommit k 0 /\ nth_error (v_vec t0') k = Some (pa_selected p, d) /\ grows t0 t0' /\
      forall w cs, incl (v_cs t0') cs -> satisfies w cs -> w (VectorCommit k 1) = pk_to_scalar enc_pk sha3 pk.
  Proof.
    intros H. destruct (spend_grows _ _ _ _ _ _ _ _ _ H) as (t1 & Eg & G1 & G2). unfold spend_dim in H. rewrite Eg in H. cbn [opt_bind] in H.
    pose proof (commit_vars E0 t1 d (pa_selected p)) as U. assert (Hv : v_vec (fst (v_commit_vec E0 t1 d (pa_selected p))) = v_vec t1 ++ [(pa_selected p, d)]) by reflexivity.
    destruct (v_commit_vec E0 t1 d (pa_selected p)) as [t2 us]. cbn [fst snd] in *. subst us. destruct d as [|[|d]]; [discriminate H|discriminate H|]. cbn [map seq nth_error opt_bind] in H. apply Some_inj in H. injection H as <- <-.
    exists (length (v_vec t1)). split; [destruct G1 as (_ & (vs & ->) & _); rewrite app_length; lia|]. cbn [v_constrain v_vec]. rewrite Hv. split; [rewrite app_length; cbn; lia|]. split; [reflexivity|].
    split; [rewrite nth_error_app2, Nat.sub_diag by lia; reflexivity|]. split; [eapply grows_trans; eassumption|].
    intros w cs Hi (w1 & _ & Hs). rewrite Forall_forall in Hs. specialize (Hs (lc_sub (lc_var (VectorCommit (length (v_vec t1)) 1)) (lc_const (pk_to_scalar enc_pk sha3 pk)))).
    rewrite lc_val_sub, lc_val_var, lc_val_const in Hs by exact w1. assert (Hz : w (VectorCommit (length (v_vec t1)) 1) - pk_to_scalar enc_pk sha3 pk = 0).
    { apply Hs, Hi. cbn [v_constrain v_cs]. apply in_app_iff. right. left. reflexivity. }
    transitivity (w (VectorCommit (length (v_vec t1)) 1) - pk_to_scalar enc_pk sha3 pk + pk_to_scalar enc_pk sha3 pk); [ring|]. rewrite Hz. ring.
  Qed.
  Lemma pour_sound d dbg L prm t c0 c1 pk0 pk1 p0 p1 ro t0' w : pour_dim d dbg L prm t c0 c1 pk0 pk1 p0 p1 (v_new ro) = Some t0' -> satisfies w (v_cs t0') ->
    exists k0 k1, (2 <= k0 < k1)%nat /\ nth_error (v_vec t0') 0 = Some (c0, 2%nat) /\ nth_error (v_vec t0') 1 = Some (c1, 2%nat) /\
      nth_error (v_vec t0') k0 = Some (pa_selected p0, d) /\ nth_error (v_vec t0') k1 = Some (pa_selected p1, d) /\
      (exists a0 a1, (a0 < 2 ^ 64)%N /\ (a1 < 2 ^ 64)%N /\ w (VectorCommit 0 0) = fN a0 /\ w (VectorCommit 1 0) = fN a1 /\
         fN a0 + fN a1 = w (VectorCommit k0 0) + w (VectorCommit k1 0)) /\
      w (VectorCommit k0 1) = pk_to_scalar enc_pk sha3 pk0 /\ w (VectorCommit k1 1) = pk_to_scalar enc_pk sha3 pk1.
  Proof.
    unfold pour_dim. destruct (verify_mint E0 dbg c0 (v_new ro)) as [[t1 v1]|] eqn:R1; [|discriminate]. cbn [opt_bind]. destruct (mint_sound _ _ _ _ _ R1) as (V1 & N1 & L1 & G1 & S1).
    destruct (verify_mint E0 dbg c1 t1) as [[t2 v2]|] eqn:R2; [|discriminate]. cbn [opt_bind]. destruct (mint_sound _ _ _ _ _ R2) as (V2 & N2 & L2 & G2 & S2).
    destruct (spend_dim _ _ _ _ d L prm t pk0 p0 t2) as [[t3 v3]|] eqn:R3; [|discriminate]. cbn [opt_bind]. destruct (spend_sound _ _ _ _ _ _ _ _ _ R3) as (k0 & K0 & L3 & V3 & N3 & G3 & S3).
    destruct (spend_dim _ _ _ _ d L prm t pk1 p1 t3) as [[t4 v4]|] eqn:R4; [|discriminate]. cbn [opt_bind]. destruct (spend_sound _ _ _ _ _ _ _ _ _ R4) as (k1 & K1 & L4 & V4 & N4 & G4 & S4).
    intros H Hs. apply Some_inj in H. subst t0'. cbn [length v_new v_vec] in V1, N1, L1. rewrite L1 in *.
    pose proof (constrain_grows t4 (balance v1 v2 v3 v4)) as G5. set (t5 := v_constrain t4 (balance v1 v2 v3 v4)) in *.
    pose proof (grows_trans _ _ _ G4 G5) as G45. pose proof (grows_trans _ _ _ G3 G45) as G35. pose proof (grows_trans _ _ _ G2 G35) as G25.
    exists k0, k1. split; [lia|]. split; [exact (grows_nth _ _ _ _ G25 N1)|]. split; [exact (grows_nth _ _ _ _ G35 N2)|]. split; [exact (grows_nth _ _ _ _ G45 N3)|]. split; [exact (grows_nth _ _ _ _ G5 N4)|].
    split; [|split; [exact (S3 w _ (proj2 (proj2 G45)) Hs)|exact (S4 w _ (proj2 (proj2 G5)) Hs)]].
    destruct (S1 w _ (proj2 (proj2 G25)) Hs) as (a0 & A0 & W0), (S2 w _ (proj2 (proj2 G35)) Hs) as (a1 & A1 & W1). exists a0, a1. rewrite V1 in W0. rewrite V2 in W1. do 4 (split; [assumption|]).
    destruct Hs as (_ & _ & Hs). rewrite Forall_forall in Hs. specialize (Hs (balance v1 v2 v3 v4)). assert (Hz : lc_val w (balance v1 v2 v3 v4) = 0) by (apply Hs; unfold t5; cbn [v_constrain v_cs]; apply in_app_iff; right; left; reflexivity).
    unfold balance in Hz. rewrite !lc_val_sub, lc_val_add, !lc_val_var in Hz. rewrite V1, V2, V3, V4, W0, W1 in Hz.
    transitivity (fN a0 + fN a1 - w (VectorCommit k0 0) - w (VectorCommit k1 0) + (w (VectorCommit k0 0) + w (VectorCommit k1 0))); [ring|]. rewrite Hz. ring.
  Qed.

  (** ** Debug assertions play no role on the verifier's side of a range proof *)
  Lemma range_dbg dbg dbg' n : forall i e v (t : VState P0), vrun E0 (range_loop dbg None n i e v) t = vrun E0 (range_loop dbg' None n i e v) t.
  Proof. induction n as [|n IH]; intros i e v t; cbn [range_loop vrun]; [reflexivity|]. unfold v_allocate_multiplier. cbn [vrun]. apply IH. Qed.
  Lemma mint_dbg dbg dbg' c t : verify_mint E0 dbg c t = verify_mint E0 dbg' c t.
  Proof.
    unfold verify_mint. destruct (v_commit_vec E0 t 2 c) as [t1 us]. destruct (nth_error us 0) as [v|]; cbn [opt_bind]; [|reflexivity].
    assert (H : forall n, vrun E0 (range_proof dbg (lc_var v) None n) t1 = vrun E0 (range_proof dbg' (lc_var v) None n) t1) by (intros n; apply range_dbg). rewrite H. reflexivity.
  Qed.
  Lemma pour_dbg d dbg dbg' L prm t c0 c1 pk0 pk1 p0 p1 t0 : pour_dim d dbg L prm t c0 c1 pk0 pk1 p0 p1 t0 = pour_dim d dbg' L prm t c0 c1 pk0 pk1 p0 p1 t0.
  Proof. unfold pour_dim. rewrite (mint_dbg dbg dbg'). destruct (verify_mint E0 dbg' c0 t0) as [[t1 v]|]; cbn [opt_bind]; [|reflexivity]. rewrite (mint_dbg dbg dbg'). reflexivity. Qed.

  Lemma pour_even_dim dbg L prm t po p0 p1 t0 : pour_even_circuit E0 enc1 enc_pk sha3 dbg L prm t po p0 p1 t0 = pour_dim L dbg L prm t (po_minted0 po) (po_minted1 po) (po_pk0 po) (po_pk1 po) p0 p1 t0.
  Proof. unfold pour_even_circuit, pour_dim, verify_spend_even, spend_dim. reflexivity. Qed.

  (** ** Acceptance of honest pours *)
  Notation pour_verify := (pour_verify E0 E1 enc0 enc1 enc_pk sha3).
  (* vocabulary of specifications and proofs, no code modelled *)
  Definition good_proof {F : Field} {V : VSpace F} (E : TrEnv V) dbg rnd pc g (s : PState F) (pf : R1CSProof V) : Prop :=
    (exists trf, r1cs_prove E dbg rnd pc g s = Some (Ok (pf, trf))) /\ Forall (fun P => P <> v0) (validated_points (op_degree_of (length (p_vec s))) pf).
  Lemma good_tuple {F : Field} {V : VSpace F} (E : TrEnv V) dbg rnd pc g tr s (t : VState V) pf dbg' rr :
    session E pc g tr s t -> p_def s = [] -> honest s -> gens_wf g -> (gens_capacity g < 2 ^ 32)%nat -> good_proof E dbg rnd pc g s pf ->
    exists vt, v_scalars_and_points E dbg' rr pf t = Some (Ok vt) /\ batch_verify [vt] [] pc g = Some (Ok tt).
  Proof.
    intros Hs Hd Hh Hw Hc ((trf & Hp) & Hnz). pose proof (C08_complete _ _ _ _ _ _ _ _ _ _ _ _ Hs Hd Hw Hc (honest_satisfies _ Hh) Hp Hnz dbg' rr) as Hv.
    unfold r1cs_verify in Hv. destruct (v_scalars_and_points E dbg' rr pf t) as [[vt|]|]; try discriminate Hv. exists vt. split; [reflexivity|exact Hv].
  Qed.
  Lemma pour_accepted dbg oc L M prm set fuel height t i0 i1 m0 m1 ro s0' s1' p0 p1 c0 c1 dbg0 rnd0 pf0 dbg1 rnd1 pf1 :
    sl_good (even_p prm) -> sl_good (odd_p prm) ->
    from_set fuel L M prm set height = TOk t -> (N.of_nat (L ^ t_height t) < 2 ^ 64)%N -> (0 < M)%nat -> t_height t <> 0%nat -> (2 <= L)%nat -> (L <= 128 \/ 2 <= t_height t)%nat ->
    co_tag (sp_coin i0) = pk_to_scalar enc_pk sha3 (sp_pk i0) -> co_tag (sp_coin i1) = pk_to_scalar enc_pk sha3 (sp_pk i1) ->
    pour_circuits dbg oc L (sl_pc (even_p prm)) (sl_pc (odd_p prm)) prm t i0 i1 m0 m1 (p_new ro) (p_new ro) = Some (s0', s1', (p0, p1, c0, c1)) ->
    honest s0' -> honest s1' -> p_def s0' = [] -> p_def s1' = [] ->
    gens_wf (sl_bp (even_p prm)) -> (gens_capacity (sl_bp (even_p prm)) < 2 ^ 32)%nat -> gens_wf (sl_bp (odd_p prm)) -> (gens_capacity (sl_bp (odd_p prm)) < 2 ^ 32)%nat ->
    good_proof E0 dbg0 rnd0 (sl_pc (even_p prm)) (sl_bp (even_p prm)) s0' pf0 -> good_proof E1 dbg1 rnd1 (sl_pc (odd_p prm)) (sl_bp (odd_p prm)) s1' pf1 ->
    forall dbg' rr0 rr1, exists vt0 vt1, pour_verify dbg' L prm t ro rr0 rr1 (mkPour pf0 pf1 p0 p1 (sp_pk i0) (sp_pk i1) c0 c1) = Some (vt0, vt1) /\
      batch_verify [vt0] [] (sl_pc (even_p prm)) (sl_bp (even_p prm)) = Some (Ok tt) /\ batch_verify [vt1] [] (sl_pc (odd_p prm)) (sl_bp (odd_p prm)) = Some (Ok tt).
  Proof.
    intros Hg0 Hg1 Ht Hc HM Hh HL HD T0 T1 Hp Hh0 Hh1 Hd0 Hd1 W0 B0 W1 B1 G0 G1 dbg' rr0 rr1.
    destruct (pour_lockstep dbg oc L M prm set fuel height t i0 i1 m0 m1 ro ro _ _ _ _ _ _ _ _ _ _ Hg0 Hg1 Ht Hc HM Hh T0 T1 (ses_new E0 _ _ ro) (ses_new E1 _ _ ro) Hp) as (p0' & p1' & t0' & t1' & Hp0 & Hp1 & Hv0 & Hv1 & Hs0 & Hs1 & (Z1 & Z2) & _).
    rewrite (pour_dbg _ _ dbg') in Hv0. destruct (pour_wider L L 2 _ _ _ _ _ _ _ _ _ _ _ _ _ (wider_refl L (v_new ro)) ltac:(lia) Hv0) as (t0r & Hr & Hw).
    destruct (good_tuple E0 dbg0 rnd0 _ _ _ _ _ pf0 dbg' rr0 Hs0 Hd0 Hh0 W0 B0 G0) as (vt0 & Q0 & K0). destruct (good_tuple E1 dbg1 rnd1 _ _ _ _ _ pf1 dbg' rr1 Hs1 Hd1 Hh1 W1 B1 G1) as (vt1 & Q1 & K1).
    exists vt0, vt1. split; [|split; assumption]. unfold Coin.pour_verify. cbn [po_path0 po_path1]. rewrite Hp0. cbn [opt_bind]. rewrite Hp1. cbn [opt_bind].
    rewrite pour_even_dim.  cbn [po_minted0 po_minted1 po_pk0 po_pk1].
    rewrite Hr. cbn [opt_bind po_even po_odd]. rewrite (v_scalars_wider E0 L dbg' rr0 pf0 t0r t0' vt0 Hw); [| |apply (wider_size L _ _ Hw); destruct HD; [lia|auto]|exact Q0].
    2:{ destruct (session_agree _ _ _ _ _ _ Hs0) as [_ Ha]. pose proof (ag_def _ _ _ _ Ha) as Hdf. rewrite Hd0 in Hdf. inversion Hdf. reflexivity. }
    cbn [unwrap opt_bind]. rewrite Hv1. cbn [opt_bind]. rewrite Q1. reflexivity.
  Qed.
  Lemma pour_dim_size d dbg L prm t c0 c1 pk0 pk1 p0 p1 t0 t1 : pour_dim d dbg L prm t c0 c1 pk0 pk1 p0 p1 t0 = Some t1 -> (d <= v_size t1)%nat.
  Proof.
    unfold pour_dim.
    destruct (verify_mint E0 dbg c0 t0) as [[a1 b1]|]; [|discriminate]. cbn [opt_bind]. destruct (verify_mint E0 dbg c1 a1) as [[a2 b2]|]; [|discriminate]. cbn [opt_bind].
    destruct (spend_dim _ _ _ _ d L prm t pk0 p0 a2) as [[a3 b3]|]; [|discriminate]. cbn [opt_bind].
    destruct (spend_dim _ _ _ _ d L prm t pk1 p1 a3) as [[a4 b4]|] eqn:R4; [|discriminate]. cbn [opt_bind]. intros Hr. apply Some_inj in Hr. subst t1.
    destruct (spend_dim_vec _ _ _ _ _ _ _ _ _ R4) as (p & Hk). apply size_at_least. right. exists p. exact Hk.
  Qed.
  Lemma pour_dim_two d dbg L prm t c0 c1 pk0 pk1 p0 p1 t0 t1 : pour_dim d dbg L prm t c0 c1 pk0 pk1 p0 p1 t0 = Some t1 -> (2 <= d)%nat.
  Proof.
    unfold pour_dim.
    destruct (verify_mint E0 dbg c0 t0) as [[a1 b1]|]; [|discriminate]. cbn [opt_bind]. destruct (verify_mint E0 dbg c1 a1) as [[a2 b2]|]; [|discriminate]. cbn [opt_bind].
    destruct (spend_dim _ _ _ _ d L prm t pk0 p0 a2) as [[a3 b3]|] eqn:R3; [|discriminate]. intros _. revert R3. unfold spend_dim. destruct (even_gadget _ _ _ _ _ _ _) as [te|]; [|discriminate]. cbn [opt_bind].
    pose proof (commit_vars E0 te d (pa_selected p0)) as U. destruct (v_commit_vec E0 te d (pa_selected p0)) as [t2 us]. cbn [fst snd] in U. subst us. destruct d as [|[|d]]; [discriminate|discriminate|]. intros _. lia.
  Qed.
  Lemma npot_128 : next_power_of_two 128 = 128%nat.
  Proof. vm_compute. reflexivity. Qed.
  (** Trees of height one with more than 128 leaves: the verifier pads its circuit to the
      branching factor, the prover to 128. *)
  Lemma pour_rejected dbg oc L M prm set fuel height t i0 i1 m0 m1 ro s0' s1' p0 p1 c0 c1 dbg0 rnd0 pf0 pf1 :
    sl_good (even_p prm) -> sl_good (odd_p prm) ->
    from_set fuel L M prm set height = TOk t -> (N.of_nat (L ^ t_height t) < 2 ^ 64)%N -> (0 < M)%nat -> t_height t = 1%nat -> (128 < L)%nat ->
    co_tag (sp_coin i0) = pk_to_scalar enc_pk sha3 (sp_pk i0) -> co_tag (sp_coin i1) = pk_to_scalar enc_pk sha3 (sp_pk i1) ->
    pour_circuits dbg oc L (sl_pc (even_p prm)) (sl_pc (odd_p prm)) prm t i0 i1 m0 m1 (p_new ro) (p_new ro) = Some (s0', s1', (p0, p1, c0, c1)) ->
    honest s0' -> p_def s0' = [] -> gens_wf (sl_bp (even_p prm)) -> (gens_capacity (sl_bp (even_p prm)) < 2 ^ 32)%nat ->
    good_proof E0 dbg0 rnd0 (sl_pc (even_p prm)) (sl_bp (even_p prm)) s0' pf0 ->
    forall dbg' rr0 rr1, pour_verify dbg' L prm t ro rr0 rr1 (mkPour pf0 pf1 p0 p1 (sp_pk i0) (sp_pk i1) c0 c1) = None.
  Proof.
    intros Hg0 Hg1 Ht Hc HM Hh HL T0 T1 Hp Hh0 Hd0 W0 B0 G0 dbg' rr0 rr1. assert (Hhz : t_height t <> 0%nat) by lia.
    destruct (pour_lockstep dbg oc L M prm set fuel height t i0 i1 m0 m1 ro ro _ _ _ _ _ _ _ _ _ _ Hg0 Hg1 Ht Hc HM Hhz T0 T1 (ses_new E0 _ _ ro) (ses_new E1 _ _ ro) Hp) as (p0' & p1' & t0' & t1' & Hp0 & Hp1 & Hv0 & Hv1 & Hs0 & Hs1 & _ & Z).
    specialize (Z Hh eq_refl eq_refl). rewrite (pour_dbg _ _ dbg') in Hv0. destruct (pour_wider L L 2 _ _ _ _ _ _ _ _ _ _ _ _ _ (wider_refl L (v_new ro)) ltac:(lia) Hv0) as (t0r & Hr & Hw).
    destruct (good_tuple E0 dbg0 rnd0 _ _ _ _ _ pf0 dbg' rr0 Hs0 Hd0 Hh0 W0 B0 G0) as (vt0 & Q0 & _).
    assert (Dv : v_def t0' = []) by (destruct (session_agree _ _ _ _ _ _ Hs0) as [_ Ha]; pose proof (ag_def _ _ _ _ Ha) as Hdf; rewrite Hd0 in Hdf; inversion Hdf; reflexivity).
    assert (Dr : v_def t0r = []) by (destruct Hw as (vs & -> & _); exact Dv).
    apply v_scalars_rounds in Q0; [|exact Dv]. rewrite Z in Q0.
    unfold Coin.pour_verify. cbn [po_path0 po_path1]. rewrite Hp0. cbn [opt_bind]. rewrite Hp1. cbn [opt_bind]. rewrite pour_even_dim. cbn [po_minted0 po_minted1 po_pk0 po_pk1]. rewrite Hr. cbn [opt_bind po_even].
    destruct (v_scalars_and_points E0 dbg' rr0 pf0 t0r) as [[vt|]|] eqn:Ev; try reflexivity. exfalso. apply v_scalars_rounds in Ev; [|exact Dr].
    assert (HLr : (L <= v_size t0r)%nat).
    { exact (pour_dim_size _ _ _ _ _ _ _ _ _ _ _ _ _ Hr). }
    pose proof (next_power_of_two_ge (v_size t0r)) as Hge. rewrite Ev, <- Q0, npot_128 in Hge. lia.
  Qed.
End Pour.
