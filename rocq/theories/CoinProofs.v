(** * Proofs about the payment layer: agreement of prover and verifier, completeness *)
From Verif Require Export Coin Wider SelPath PropsR1CS.
From Verif Require Import CSProofs UtilProofs Lockstep CSMore R1CS R1CSSpec R1CSProofs R1CSVerif R1CSMain CSLogic GadgetProofs SelSim PropsGadgets PropsSingle PropsRerand PropsSelRerand.
Local Open Scope F_scope.

(** ** Committing a pair of values *)
Section Pair.
  Context {F : Field} {S : PField} {C : SWCurve F S} (E : TrEnv C) (sl : SLParams C) (tr : Transcript).
  Add Field FFpair : (f_th S).

  Lemma commit_pair {n} (s : PState S) a b r c : honest_from n s -> sl_commit sl [a; b] r 0 = Some c ->
    exists s', p_commit_vec E (sl_pc sl) (sl_bp sl) s [a; b] r = Some (s', (c, [VectorCommit (length (p_vec s)) 0; VectorCommit (length (p_vec s)) 1])) /\
      honest_from n s' /\ keeps s s' /\ issued s' (VectorCommit (length (p_vec s)) 0) /\ issued s' (VectorCommit (length (p_vec s)) 1) /\
      p_asg s' (VectorCommit (length (p_vec s)) 0) = a /\ p_asg s' (VectorCommit (length (p_vec s)) 1) = b /\ p_def s' = p_def s.
  Proof.
    intros Hh Hc. rewrite <- (C22_same_commitment _ _ _ E sl s [a; b] r) in Hc.
    destruct (p_commit_vec E (sl_pc sl) (sl_bp sl) s [a; b] r) as [[s' [c' us]]|] eqn:Ec; [|discriminate Hc]. cbn in Hc. apply Some_inj in Hc. subst c'.
    destruct (p_commit_vec_inv E _ _ _ _ _ _ _ (proj1 Hh) Ec) as [Hg1 Hext]. destruct (p_commit_vec_returns E _ _ _ _ _ _ _ _ Ec) as [Hlu Hus].
    pose proof (ext_keeps _ _ Hext) as Hk. destruct (p_commit_vec_spec E _ _ _ _ _ _ _ _ Ec) as (_ & _ & Eus & Es). cbn in Eus. subst us.
    exists s'. split; [reflexivity|]. split.
    { split; [exact Hg1|]. assert (Ecs : p_cs s' = p_cs s) by (rewrite Es; reflexivity). rewrite Ecs.
      eapply Forall_impl; [|exact (proj2 Hh)]. intros lc [O1 O2]. split; [eapply lc_ok_sub; [|exact O1]; intros u Hu; apply Hk, Hu|]. rewrite (keeps_val _ _ _ Hk O1). exact O2. }
    split; [exact Hk|]. destruct (Hus 0%nat ltac:(cbn; lia)) as [I0 V0], (Hus 1%nat ltac:(cbn; lia)) as [I1 V1]. cbn in I0, V0, I1, V1.
    split; [exact I0|]. split; [exact I1|]. split; [apply issued_var; exact V0|]. split; [apply issued_var; exact V1|]. rewrite Es. reflexivity.
  Qed.
  Lemma constrain_honest {n} (s : PState S) lc : honest_from n s -> lc_ok (issued s) lc -> lc_val (p_asg s) lc = 0 -> honest_from n (p_constrain s lc) /\ keeps s (p_constrain s lc).
  Proof.
    intros [Hg Hc] Ho Hv. split; [|intros u Hu; split; [exact Hu|reflexivity]]. split; [exact Hg|]. cbn [p_constrain p_cs]. apply Forall_app. split; [exact Hc|]. constructor; [|constructor]. split; assumption.
  Qed.
  Lemma constrain_R R pc g (s : PState S) (t : VState C) lc : locked E pc g R -> R s t -> R (p_constrain s lc) (v_constrain t lc).
  Proof.
    intros HR H. destruct (lk_gadget _ _ _ _ HR unit (PConstrain lc (PRet tt)) (PConstrain lc (PRet tt)) _ _ _ _ H ltac:(do 2 constructor) eq_refl) as (t' & Ht & H').
    cbn [vrun] in Ht. apply Some_inj, pair_inj in Ht as [<- _]. exact H'.
  Qed.
  Lemma constrain_session pc g (s : PState S) (t : VState C) lc : session E pc g tr s t -> session E pc g tr (p_constrain s lc) (v_constrain t lc).
  Proof. apply constrain_R with (1 := session_locked E pc g tr). Qed.
End Pair.

Section CoinProofs.
  Context {F0 F1 : PField} {P0 : SWCurve F1 F0} {P1 : SWCurve F0 F1} {FC : Field} {C : VSpace FC}.
  Variables (E0 : TrEnv P0) (E1 : TrEnv P1) (enc0 : P0 -> bytes) (enc1 : P1 -> bytes).
  Variables (sg : SigScheme FC C) (enc_pk : C -> bytes) (enc_sc : FC -> bytes) (sha3 : bytes -> bytes).
  Add Field FFcoin : (f_th F0).

  Notation coin_new := (coin_new sg enc_pk enc_sc sha3 (P0 := P0)).
  Notation coin_mint := (coin_mint E0 sg enc_pk enc_sc sha3).

  Lemma coin_new_spec sl value pk pkr b coin c : coin_new sl value pk pkr b = Some (coin, c) ->
    exists rpk, rerandomized_pk sg enc_sc pk pkr = Some rpk /\ coin = mkCoin value (pk_to_scalar enc_pk sha3 rpk) b pkr /\
      sl_commit sl [fN value; pk_to_scalar enc_pk sha3 rpk] b 0 = Some c.
  Proof.
    unfold Coin.coin_new. destruct (rerandomized_pk sg enc_sc pk pkr) as [rpk|]; [|discriminate]. cbn [opt_bind]. destruct (sl_commit sl _ b 0) as [c'|] eqn:Ec; [|discriminate]. cbn [opt_bind].
    intros H. apply Some_inj in H. injection H as <- <-. exists rpk. auto.
  Qed.

  (** ** Minting *)
  Lemma mint_total {n} dbg sl value pk pkr b coin c s : honest_from n s -> coin_new sl value pk pkr b = Some (coin, c) -> (value < 2 ^ 64)%N ->
    exists s' v, coin_mint dbg (sl_pc sl) sl value pk pkr b s = Some (s', (coin, c, v)) /\ honest_from n s' /\ keeps s s' /\ issued s' v /\ p_asg s' v = fN value /\ p_def s' = p_def s.
  Proof.
    intros Hh Hn Hv. unfold Coin.coin_mint. rewrite Hn. cbn [opt_bind fst snd]. destruct (coin_new_spec _ _ _ _ _ _ _ Hn) as (rpk & _ & -> & Hc). cbn [co_tag co_blinding].
    destruct (commit_pair E0 sl s _ _ _ _ Hh Hc) as (s1 & Ec & Hh1 & Hk1 & I0 & I1 & V0 & V1 & Hd). rewrite Ec. cbn [opt_bind nth_error].
    destruct (range_total E0 dbg (lc_var (VectorCommit (length (p_vec s)) 0)) value 64 s1 Hh1) as (s2 & R & Hh2 & Hk2); [apply lc_ok_var; exact I0|lia|exact Hv|rewrite lc_val_var; exact V0|].
    rewrite R. cbn [opt_bind]. eexists s2, _. split; [reflexivity|]. split; [exact Hh2|]. split; [eapply keeps_trans; eassumption|]. destruct (Hk2 _ I0) as [I2 V2]. split; [exact I2|]. split; [congruence|].
    rewrite <- Hd. eapply simg_def; [|exact R]. apply range_loop_same.
  Qed.
  Lemma mint_lockstep_R R dbg sl value pk pkr b s t s' coin c v : locked E0 (sl_pc sl) (sl_bp sl) R -> R s t ->
    coin_mint dbg (sl_pc sl) sl value pk pkr b s = Some (s', (coin, c, v)) ->
    exists t', verify_mint E0 dbg c t = Some (t', v) /\ R s' t'.
  Proof.
    intros HR Hses. unfold Coin.coin_mint. destruct (coin_new sl value pk pkr b) as [[coin' cc]|]; [|discriminate]. cbn [opt_bind fst].
    destruct (p_commit_vec E0 (sl_pc sl) (sl_bp sl) s _ _) as [[s1 [c1 us]]|] eqn:Ec; [|discriminate]. cbn [opt_bind].
    destruct (lk_commit_vec _ _ _ _ HR _ _ _ _ _ _ _ Hses Ec) as [Hu Hses1]. cbn [length] in Hu, Hses1.
    destruct (v_commit_vec E0 t 2 c1) as [t1 us'] eqn:Ev. cbn [fst snd] in Hu, Hses1. subst us'.
    destruct (nth_error us 0) as [v'|] eqn:E0v; [|discriminate]. cbn [opt_bind].
    destruct (prun E0 (range_proof dbg (lc_var v') (Some value) 64) s1) as [[s2 res]|] eqn:R2; [|discriminate]. cbn [opt_bind].
    assert (Hsg : same_gadget (range_proof (F := F0) dbg (lc_var v') (Some value) 64) (range_proof dbg (lc_var v') None 64)) by (apply simg_same, range_loop_same).
    destruct (lk_gadget _ _ _ _ HR _ _ _ _ _ _ _ Hses1 Hsg R2) as (t2 & Ht & Hs2). destruct res as [u|e]; [|discriminate]. intros H. apply Some_inj in H. injection H as <- <- <- <-.
    exists t2. unfold verify_mint. rewrite Ev, E0v. cbn [opt_bind]. rewrite Ht. cbn [opt_bind]. split; [reflexivity|exact Hs2].
  Qed.
  Lemma mint_lockstep dbg sl value pk pkr b tr s t s' coin c v : session E0 (sl_pc sl) (sl_bp sl) tr s t ->
    coin_mint dbg (sl_pc sl) sl value pk pkr b s = Some (s', (coin, c, v)) ->
    exists t', verify_mint E0 dbg c t = Some (t', v) /\ session E0 (sl_pc sl) (sl_bp sl) tr s' t'.
  Proof. apply mint_lockstep_R, session_locked. Qed.
  Lemma mint_wider D dbg c t t' t1' v : wider D t t' -> verify_mint E0 dbg c t' = Some (t1', v) -> exists t1, verify_mint E0 dbg c t = Some (t1, v) /\ wider D t1 t1'.
  Proof.
    intros Hw. unfold verify_mint. pose proof (commit_wider E0 D t t' 2 2 c Hw ltac:(lia)) as Hw1. pose proof (commit_vars E0 t 2 c) as U. pose proof (commit_vars E0 t' 2 c) as U'.
    rewrite (wider_len _ _ _ Hw) in U. destruct (v_commit_vec E0 t 2 c) as [t2 us], (v_commit_vec E0 t' 2 c) as [t2' us']. cbn [fst snd] in *. subst us us'. cbn [nth_error map seq opt_bind].
    destruct (vrun E0 _ t2') as [[t3' res]|] eqn:R; [|discriminate]. destruct (vrun_wider E0 _ _ _ _ _ _ Hw1 R) as (t3 & -> & Hw3). cbn [opt_bind]. destruct res; [|discriminate]. intros H. apply Some_inj in H. injection H as <- <-. eauto.
  Qed.

  (** ** Spending *)
  Lemma sr_selected L prm root d evens odds leaf os es pc0 pc1 s0 s1 s0' s1' p r : t_opens L 0 d prm root evens odds leaf -> d <> 0%nat ->
    sr_prove E0 E1 enc0 enc1 pc0 pc1 prm evens odds os es s0 s1 = Some (s0', s1', (p, r)) -> pa_selected p = vadd leaf (vsmul r (pcB_blinding (sl_pc (even_p prm)))).
  Proof.
    intros Ho Hd Hp. unfold sr_prove in Hp. destruct (root_is_even evens odds) as [top|]; [|discriminate Hp]. cbn [opt_bind] in Hp.
    destruct (prove_levels E0 _ _ s0 _) as [s0''|]; [|discriminate Hp]. cbn [opt_bind] in Hp. destruct (prove_levels E1 _ _ s1 _) as [s1''|]; [|discriminate Hp]. cbn [opt_bind] in Hp.
    apply Some_inj in Hp. unfold make_path in Hp. apply pair_inj in Hp as [_ Hp]. apply pair_inj in Hp as [<- <-]. cbn [pa_selected].
    assert (Hl : exists wl, nth_error odds (length odds - 1) = Some wl /\ leaf = w_child wl).
    { destruct root as [c|c]; cbn [t_opens] in Ho.
      - destruct (opens_leaf _ _ _ _ _ _ _ _ _ _ _ _ _ Ho) as [Hlen [Hz|(wl & Hwl & ->)]]; [contradiction|]. eauto.
      - destruct (opens_leaf _ _ _ _ _ _ _ _ _ _ _ _ _ Ho) as [Hlen (wl & Hwl & ->)]. exists wl. auto. }
    destruct Hl as (wl & Hwl & ->). rewrite (last_nth _ v0 (rerandomized (even_p prm) wl (es (length odds - 1)%nat))); [destruct odds; [discriminate Hwl|reflexivity]|].
    rewrite imap_length, imap_nth, Hwl. reflexivity.
  Qed.
  Notation prove_spend := (prove_spend E0 E1 enc0 enc1).
  (** [verify_spend_even] with dimension [d] instead of [L] for the coin *)
  Definition spend_dim (d L : nat) prm (t : CurveTree P0 P1) (pk : C) (p : Path P0 P1) (t0 : VState P0) : option (VState P0 * Var) :=
    do t0 <- even_gadget E0 enc1 L prm t p t0;
    let '(t0, vars) := v_commit_vec E0 t0 d (pa_selected p) in
    do v1 <- nth_error vars 1; do v0 <- nth_error vars 0;
    Some (v_constrain t0 (lc_sub (lc_var v1) (lc_const (pk_to_scalar enc_pk sha3 pk))), v0).

  Lemma spend_total {n0 n1} oc L M prm set fuel height t i leaf evens odds os es s0 s1 value pk pkr b coin :
    sl_good (even_p prm) -> sl_good (odd_p prm) -> sw_a P0 = 0 -> sw_a P1 = 0 ->
    from_set fuel L M prm set height = TOk t -> (N.of_nat (L ^ t_height t) < 2 ^ 64)%N -> (0 < M)%nat -> t_height t <> 0%nat ->
    nth_error set i = Some leaf -> tree_witness oc L t (N.of_nat i) 0 prm = Some (evens, odds) ->
    (forall k w, nth_error evens k = Some w -> admissible (odd_p prm) (w_child w) (os k)) -> (forall k w, nth_error odds k = Some w -> admissible (even_p prm) (w_child w) (es k)) ->
    coin_new (even_p prm) value pk pkr b = Some (coin, leaf) -> honest_from n0 s0 -> honest_from n1 s1 ->
    exists s0' s1' p v, prove_spend oc L coin (N.of_nat i) (sl_pc (even_p prm)) (sl_pc (odd_p prm)) prm t os es s0 s1 = Some (s0', s1', (p, v)) /\
      honest_from n0 s0' /\ honest_from n1 s1' /\ keeps s0 s0' /\ keeps s1 s1' /\ issued s0' v /\ p_asg s0' v = fN value /\ p_def s0' = p_def s0 /\ p_def s1' = p_def s1.
  Proof.
    intros Hg0 Hg1 Ha0 Ha1 Ht Hc HM Hh Hleaf Hw Aos Aes Hn Hh0 Hh1.
    destruct (tree_prove_opens L M prm set fuel height t oc (N.of_nat i) 0 evens odds Ht Hc HM Hw) as (leaf' & root & Hleaf' & Hr & Ho).
    assert (leaf' = leaf) as ->.
    { destruct (from_set_ok _ _ _ _ _ _ _ Ht) as (HL & d & Hd & _). rewrite (tree_ok_height _ _ _ _ _ _ Hd) in *. assert (Hi : (i < length set)%nat) by (apply nth_error_Some; rewrite Hleaf; discriminate).
      rewrite (index_small L d set i Hi (proj2 (tree_ok_le _ _ _ _ _ _ HL Hd))) in Hleaf'. congruence. }
    destruct (sr_total E0 E1 enc0 enc1 L prm root (t_height t) evens odds leaf os es s0 s1 Hg0 Hg1 Ha0 Ha1 Ho Aos Aes Hh0 Hh1) as (s0' & s1' & p & r & Hp & Hh0' & Hh1' & Hk0 & Hk1 & Hd0' & Hd1').
    unfold Coin.prove_spend, tree_prove. rewrite Hw. cbn [opt_bind fst snd]. rewrite Hp. cbn [opt_bind].
    pose proof (sr_selected _ _ _ _ _ _ _ _ _ _ _ _ _ _ _ _ _ Ho Hh Hp) as Hsel.
    destruct (coin_new_spec _ _ _ _ _ _ _ Hn) as (rpk & _ & -> & Hcm). cbn [co_value co_tag co_blinding].
    destruct (commit_pair E0 (even_p prm) s0' _ _ _ _ Hh0' (C22_blinding _ _ _ _ _ _ r _ _ Hcm)) as (s2 & Ec & Hh2 & Hk2 & I0 & I1 & V0 & V1 & Hd). rewrite Ec. cbn [opt_bind].
    rewrite Hsel. rewrite (proj2 (veqb_true _ _) eq_refl). cbn [guard nth_error opt_bind].
    destruct (constrain_honest (n := n0) s2 (lc_sub (lc_var (VectorCommit (length (p_vec s0')) 1)) (lc_const (pk_to_scalar enc_pk sha3 rpk)))) as [Hh3 Hk3]; [exact Hh2| | |].
    { apply lc_ok_sub_lc; [apply lc_ok_var, I1|apply lc_ok_const, issued_one]. }
    { rewrite lc_val_sub, lc_val_var, lc_val_const by reflexivity. rewrite V1. ring. }
    eexists _, s1', p, _. split; [reflexivity|]. split; [exact Hh3|]. split; [exact Hh1'|]. split; [exact (keeps_trans _ _ _ (keeps_trans _ _ _ Hk0 Hk2) Hk3)|]. split; [exact Hk1|].
    split; [exact I0|]. split; [exact V0|]. split; [exact (eq_trans Hd Hd0')|exact Hd1'].
  Qed.
  Lemma spend_lockstep_R R0 R1 oc L M prm set fuel height t index os es s0 s1 (t0 : VState P0) (t1 : VState P1) (coin : CoinT F0 FC) pk s0' s1' p v :
    locked E0 (sl_pc (even_p prm)) (sl_bp (even_p prm)) R0 -> locked E1 (sl_pc (odd_p prm)) (sl_bp (odd_p prm)) R1 ->
    sl_good (even_p prm) -> sl_good (odd_p prm) ->
    from_set fuel L M prm set height = TOk t -> (N.of_nat (L ^ t_height t) < 2 ^ 64)%N -> (0 < M)%nat -> t_height t <> 0%nat ->
    co_tag coin = pk_to_scalar enc_pk sha3 pk ->
    R0 s0 t0 -> R1 s1 t1 ->
    prove_spend oc L coin index (sl_pc (even_p prm)) (sl_pc (odd_p prm)) prm t os es s0 s1 = Some (s0', s1', (p, v)) ->
    exists p' t0' t1', verification_commitments t p = Some p' /\ spend_dim 2 L prm t pk p' t0 = Some (t0', v) /\ odd_gadget E1 enc0 L prm t p' t1 = Some t1' /\
      (length (pa_even p') + length (pa_odd p') = t_height t)%nat /\ R0 s0' t0' /\ R1 s1' t1'.
  Proof.
    intros HR0 HR1 Hg0 Hg1 Ht Hc HM Hh Htag Hses0 Hses1. unfold Coin.prove_spend, tree_prove.
    destruct (tree_witness oc L t index 0 prm) as [[evens odds]|] eqn:Hw; [|discriminate]. cbn [opt_bind fst snd].
    destruct (sr_prove E0 E1 enc0 enc1 _ _ prm evens odds os es s0 s1) as [[[u0 u1] [p1 r]]|] eqn:Hp; [|discriminate]. cbn [opt_bind].
    destruct (tree_prove_opens L M prm set fuel height t oc index 0 evens odds Ht Hc HM Hw) as (leaf & root & Hleaf & Hr & Ho).
    destruct (sr_lockstep_R E0 E1 enc0 enc1 R0 R1 true L prm t root (t_height t) evens odds leaf os es s0 s1 t0 t1 u0 u1 p1 r HR0 HR1 Hg0 Hg1 Hr Ho Hh (tree_witness_root _ _ _ _ _ _ _ _ Hw Hh) ltac:(reflexivity) Hses0 Hses1 Hp) as (t0' & t1' & Hv & Hs0 & Hs1 & Hsel).
    destruct (p_commit_vec E0 _ _ u0 _ _) as [[u2 [c us]]|] eqn:Ec; [|discriminate]. cbn [opt_bind]. destruct (veqb_spec _ _ (pa_selected p1) c) as [Heq|]; [|discriminate]. cbn [guard].
    destruct (lk_commit_vec _ _ _ _ HR0 _ _ _ _ _ _ _ Hs0 Ec) as [Hu Hs2]. cbn [length] in Hu, Hs2.
    destruct (v_commit_vec E0 t0' 2 c) as [t2 us'] eqn:Ev. cbn [fst snd] in Hu, Hs2. subst us'.
    destruct (nth_error us 0) as [x0|] eqn:N0; [|discriminate]. cbn [opt_bind]. destruct (nth_error us 1) as [x1|] eqn:N1; [|discriminate]. cbn [opt_bind].
    intros H. apply Some_inj in H. apply pair_inj in H as [H H2]. apply pair_inj in H as [<- <-]. apply pair_inj in H2 as [<- <-].
    unfold sr_verify in Hv. destruct (verification_commitments t p1) as [p'|] eqn:Evc; [|discriminate Hv]. cbn [opt_bind andb] in Hv. destruct (Nat.eqb_spec (t_height t) (length (pa_even p') + length (pa_odd p'))) as [Hlen|]; [|discriminate Hv]. cbn [negb] in Hv.
    assert (Esel : pa_selected p' = pa_selected p1).
    { unfold verification_commitments in Evc. destruct t as [ct|ct]; unfold guard in Evc; (destruct (_ =? _)%nat; [|discriminate Evc]); (destruct (n_commitment ct 0); [|discriminate Evc]); cbn [opt_bind] in Evc; apply Some_inj in Evc; subst p'; reflexivity. }
    destruct (even_gadget E0 enc1 L prm t p' t0) as [t0''|] eqn:Eg; [|discriminate Hv]. cbn [opt_bind] in Hv. destruct (odd_gadget E1 enc0 L prm t p' t1) as [t1''|] eqn:Og; [|discriminate Hv]. cbn [opt_bind] in Hv.
    apply Some_inj in Hv. apply pair_inj in Hv as [Hv _]. apply pair_inj in Hv as [-> ->].
    eexists p', _, t1'. split; [reflexivity|]. unfold spend_dim. rewrite Eg. cbn [opt_bind]. rewrite Esel, Heq, Ev, N0, N1. cbn [opt_bind]. rewrite <- Htag. split; [reflexivity|]. split; [exact Og|]. split; [symmetry; exact Hlen|]. split; [|exact Hs1].
    apply constrain_R with (1 := HR0). exact Hs2.
  Qed.
  Lemma spend_lockstep oc L M prm set fuel height t index os es tr0 tr1 s0 s1 (t0 : VState P0) (t1 : VState P1) (coin : CoinT F0 FC) pk s0' s1' p v :
    sl_good (even_p prm) -> sl_good (odd_p prm) ->
    from_set fuel L M prm set height = TOk t -> (N.of_nat (L ^ t_height t) < 2 ^ 64)%N -> (0 < M)%nat -> t_height t <> 0%nat ->
    co_tag coin = pk_to_scalar enc_pk sha3 pk ->
    session E0 (sl_pc (even_p prm)) (sl_bp (even_p prm)) tr0 s0 t0 -> session E1 (sl_pc (odd_p prm)) (sl_bp (odd_p prm)) tr1 s1 t1 ->
    prove_spend oc L coin index (sl_pc (even_p prm)) (sl_pc (odd_p prm)) prm t os es s0 s1 = Some (s0', s1', (p, v)) ->
    exists p' t0' t1', verification_commitments t p = Some p' /\ spend_dim 2 L prm t pk p' t0 = Some (t0', v) /\ odd_gadget E1 enc0 L prm t p' t1 = Some t1' /\
      (length (pa_even p') + length (pa_odd p') = t_height t)%nat /\ session E0 (sl_pc (even_p prm)) (sl_bp (even_p prm)) tr0 s0' t0' /\ session E1 (sl_pc (odd_p prm)) (sl_bp (odd_p prm)) tr1 s1' t1'.
  Proof. apply spend_lockstep_R; apply session_locked. Qed.
  Lemma levels_wider D (lvs : list (VLevel P0)) : forall t t' t1', wider D t t' -> verify_levels E0 t' lvs = Some t1' -> exists t1, verify_levels E0 t lvs = Some t1 /\ wider D t1 t1'.
  Proof.
    induction lvs as [|lv lvs IH]; intros t t' t1' Hw H; cbn [verify_levels] in *; [apply Some_inj in H; subst; eauto|].
    destruct (verify_level E0 t' lv) as [t2'|] eqn:E2; [|discriminate]. cbn [opt_bind] in H.
    assert (Hx : exists t2, verify_level E0 t lv = Some t2 /\ wider D t2 t2').
    { unfold verify_level in *. destruct (vl_src lv) as [xs|[d c]].
      - destruct (vrun E0 _ t') as [[t3' a]|] eqn:R; [|discriminate]. cbn [opt_bind fst] in E2. apply Some_inj in E2. subst t3'. destruct (vrun_wider E0 _ _ _ _ _ _ Hw R) as (t3 & -> & Hw3). cbn [opt_bind fst]. eauto.
      - pose proof (commit_wider E0 D t t' d d c Hw ltac:(lia)) as Hw1. rewrite !commit_vars in *. rewrite (wider_len _ _ _ Hw). destruct (vrun E0 _ (fst (v_commit_vec E0 t' d c))) as [[t3' a]|] eqn:R; [|discriminate].
        cbn [opt_bind fst] in E2. apply Some_inj in E2. subst t3'. destruct (vrun_wider E0 _ _ _ _ _ _ Hw1 R) as (t3 & -> & Hw3). cbn [opt_bind fst]. eauto. }
    destruct Hx as (t2 & -> & Hw2). cbn [opt_bind]. eapply IH; eassumption.
  Qed.
  Lemma spend_wider D d d' L prm t pk p t0 t0' t1' v : wider D t0 t0' -> (d' <= d <= Nat.max d' D)%nat -> spend_dim d' L prm t pk p t0' = Some (t1', v) -> exists t1, spend_dim d L prm t pk p t0 = Some (t1, v) /\ wider D t1 t1'.
  Proof.
    intros Hw Hd. unfold spend_dim, even_gadget. destruct (root_is_odd p) as [od|]; [|discriminate]. cbn [opt_bind]. destruct (even_levels enc1 L prm t p od) as [lvs|]; [|discriminate]. cbn [opt_bind].
    destruct (verify_levels E0 t0' lvs) as [t2'|] eqn:El; [|discriminate]. destruct (levels_wider D lvs _ _ _ Hw El) as (t2 & -> & Hw2). cbn [opt_bind].
    pose proof (commit_wider E0 D t2 t2' d d' (pa_selected p) Hw2 Hd) as Hw3. pose proof (commit_vars E0 t2 d (pa_selected p)) as U. pose proof (commit_vars E0 t2' d' (pa_selected p)) as U'.
    rewrite (wider_len _ _ _ Hw2) in U. destruct (v_commit_vec E0 t2 d _) as [t3 us], (v_commit_vec E0 t2' d' _) as [t3' us']. cbn [fst snd] in *. subst us us'.
    destruct d' as [|[|d']]; [discriminate|discriminate|]. destruct d as [|[|d]]; [lia|lia|]. cbn [seq map nth_error opt_bind]. intros H. apply Some_inj in H. injection H as <- <-. eexists. split; [reflexivity|]. apply constrain_wider, Hw3.
  Qed.
End CoinProofs.
