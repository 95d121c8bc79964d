(** * Prover and verifier back ends: what the verification equation evaluates to *)
From Verif Require Import R1CSSpec UtilProofs CSProofs Lockstep FlatProofs CSMore R1CSPoly R1CSAlg IPPSpec IPPProofs.
Local Open Scope F_scope.

Section States.
  Context {F : Field} {V : VSpace F}.
  Add Field FFst : (f_th F).
  Variable E : TrEnv V.
  Implicit Types (s : PState F) (t : VState V).

  (* vocabulary of specifications and proofs, no code modelled *)
  Definition vmax (vec : list (F * list F)) (n0 : nat) : nat := fold_left (fun n bv => Nat.max n (length (snd bv))) vec n0.
  Lemma vmax_ge vec : forall n0, (n0 <= vmax vec n0)%nat.
  Proof. induction vec as [|bv vec IH]; intros n0; cbn; [lia|]. specialize (IH (Nat.max n0 (length (snd bv)))). unfold vmax in *. lia. Qed.
  Lemma vmax_all vec : forall n0, Forall (fun bv => (length (snd bv) <= vmax vec n0)%nat) vec.
  Proof.
    induction vec as [|bv vec IH]; intros n0; [constructor|]. cbn [vmax fold_left]. constructor.
    - pose proof (vmax_ge vec (Nat.max n0 (length (snd bv)))). unfold vmax in *. lia.
    - apply IH.
  Qed.
  Lemma vmax_bounded vec : forall n0, Forall (fun bv => (length (snd bv) <= n0)%nat) vec -> vmax vec n0 = n0.
  Proof.
    induction vec as [|bv vec IH]; intros n0 H; [reflexivity|]. inversion H; subst. cbn [vmax fold_left].
    replace (Nat.max n0 (length (snd bv))) with n0 by lia. apply IH. assumption.
  Qed.
  Lemma vmax_mono vec : forall n0, vmax vec (vmax vec n0) = vmax vec n0.
  Proof. intros n0. apply vmax_bounded, vmax_all. Qed.
  Lemma vmax_between vec : forall n0 k, (n0 <= k <= vmax vec n0)%nat -> vmax vec k = vmax vec n0.
  Proof.
    induction vec as [|bv vec IH]; intros n0 k H; cbn [vmax fold_left] in *; [cbn in H; lia|].
    fold (vmax vec (Nat.max n0 (length (snd bv)))) in *. fold (vmax vec (Nat.max k (length (snd bv)))).
    apply IH. pose proof (vmax_ge vec (Nat.max n0 (length (snd bv)))). lia.
  Qed.

  Lemma p_pad_spec k : forall s, (p_size s - length (p_aL s) = k)%nat -> forall fuel, (k <= fuel)%nat ->
    p_pad fuel s = p_set_wires s (p_aL s ++ zeros k) (p_aR s ++ zeros k) (p_aO s ++ zeros k).
  Proof.
    induction k as [|k IH]; intros s Hk fuel Hf.
    - assert (Hle : (p_size s <=? length (p_aL s))%nat = true) by (apply Nat.leb_le; lia).
      destruct s. destruct fuel; cbn [p_pad]; rewrite Hle; cbn; rewrite !app_nil_r; reflexivity.
    - destruct fuel as [|fuel]; [lia|]. cbn [p_pad].
      assert (Hle : (p_size s <=? length (p_aL s))%nat = false) by (apply Nat.leb_gt; lia). rewrite Hle.
      rewrite IH with (fuel := fuel).
      + unfold p_allocate_multiplier. cbn [fst p_set_wires p_aL p_aR p_aO]. unfold p_set_wires. cbn.
        replace (0 * 0 : F) with (0 : F) by ring. rewrite <- !app_assoc. reflexivity.
      + unfold p_allocate_multiplier. cbn [fst p_set_wires p_aL]. unfold p_size. cbn [p_vec p_aL p_set_wires].
        fold (vmax (p_vec s) (length (p_aL s ++ [0]))). rewrite app_length. cbn [length].
        rewrite (vmax_between (p_vec s) (length (p_aL s)) (length (p_aL s) + 1)).
        * unfold p_size in Hk. fold (vmax (p_vec s) (length (p_aL s))) in Hk. lia.
        * unfold p_size in Hk. fold (vmax (p_vec s) (length (p_aL s))) in Hk. lia.
      + lia.
  Qed.

  (* vocabulary of specifications and proofs, no code modelled *)
  Definition padded s : PState F :=
    let k := (p_size s - length (p_aL s))%nat in
    p_set_wires s (p_aL s ++ zeros k) (p_aR s ++ zeros k) (p_aO s ++ zeros k).
  Lemma p_pad_eq s : p_pad (p_size s) s = padded s.
  Proof. apply p_pad_spec; lia. Qed.
  Lemma p_size_ge s : (length (p_aL s) <= p_size s)%nat.
  Proof. apply vmax_ge. Qed.
  Lemma padded_length s : length (p_aL (padded s)) = p_size s.
  Proof. cbn. rewrite app_length, zeros_length. pose proof (p_size_ge s). lia. Qed.
  Lemma padded_size s : p_size (padded s) = p_size s.
  Proof.
    unfold p_size at 1. rewrite padded_length. cbn [padded p_vec p_set_wires]. apply vmax_bounded. apply vmax_all.
  Qed.
  Lemma padded_inv s : gates_inv s -> gates_inv (padded s).
  Proof.
    intros (HR & HO & HG & HP). unfold padded. set (k := (_ - _)%nat). unfold gates_from, p_set_wires; cbn [p_aL p_aR p_aO p_pend].
    rewrite !app_length, !zeros_length. split; [lia|]. split; [lia|]. split.
    - intros i. cbn [Nat.add]. rewrite !nth_app0, HR, HO. destruct (i <? length (p_aL s))%nat; [apply HG|]. rewrite !nth_zeros. ring.
    - intros i Hi. destruct (HP i Hi) as [H1 H2]. split; [lia|]. rewrite nth_app0, HR.
      destruct (Nat.ltb_spec i (length (p_aL s))); [exact H2|lia].
  Qed.

  Lemma v_size_agree pc g s t : agree pc g s t -> v_size t = p_size s.
  Proof.
    intros [A1 A2 A3 A4 A5 A6 A7 A8 A9]. unfold v_size, p_size. rewrite A8, <- A3. clear.
    generalize (length (p_aL s)). induction (p_vec s) as [|bv vec IH]; intros n; cbn; [reflexivity|].
    rewrite IH. f_equal. lia.
  Qed.
  Lemma v_pad_spec k : forall t, (v_size t - v_num t = k)%nat -> forall fuel, (k <= fuel)%nat ->
    v_pad fuel t = v_set_num t (k + v_num t) (v_pend t).
  Proof.
    assert (Hv : forall (vec : list (V * nat)) n0 k, (n0 <= k <= fold_left (fun n cd => Nat.max (snd cd) n) vec n0)%nat ->
      fold_left (fun n cd => Nat.max (snd cd) n) vec k = fold_left (fun n cd => Nat.max (snd cd) n) vec n0).
    { assert (Hge : forall (vec : list (V * nat)) n0, (n0 <= fold_left (fun n cd => Nat.max (snd cd) n) vec n0)%nat).
      { induction vec as [|bv vec IHv]; intros n0; cbn; [lia|]. specialize (IHv (Nat.max (snd bv) n0)). lia. }
      induction vec as [|bv vec IHv]; intros n0 k' H; cbn in *; [lia|]. apply IHv.
      pose proof (Hge vec (Nat.max (snd bv) n0)). lia. }
    induction k as [|k IH]; intros t Hk fuel Hf.
    - assert (Hle : (v_size t <=? v_num t)%nat = true) by (apply Nat.leb_le; lia).
      destruct t. destruct fuel; cbn [v_pad]; rewrite Hle; reflexivity.
    - destruct fuel as [|fuel]; [lia|]. cbn [v_pad].
      assert (Hle : (v_size t <=? v_num t)%nat = false) by (apply Nat.leb_gt; lia). rewrite Hle.
      rewrite IH with (fuel := fuel).
      + unfold v_allocate_multiplier. cbn [fst v_set_num v_num v_pend]. unfold v_set_num. cbn. f_equal. lia.
      + unfold v_allocate_multiplier, v_size in *. cbn [fst v_set_num v_num v_vec].
        rewrite (Hv (v_vec t) (v_num t) (S (v_num t))); lia.
      + lia.
  Qed.
  Lemma pad_agree pc g s t : agree pc g s t -> agree pc g (padded s) (v_pad (v_size t) t).
  Proof.
    intros H. pose proof (v_size_agree _ _ _ _ H) as Hs. rewrite (v_pad_spec (v_size t - v_num t)) by lia.
    destruct H as [A1 A2 A3 A4 A5 A6 A7 A8 A9]. constructor; cbn; auto.
    rewrite app_length, zeros_length. rewrite Hs, <- A3. lia.
  Qed.
  Lemma set_tr_agree pc g s t tr : agree pc g s t -> agree pc g (p_set_tr s tr) (v_set_tr t tr).
  Proof. intros [A1 A2 A3 A4 A5 A6 A7 A8 A9]. constructor; cbn; auto. Qed.

  (** commitments are not touched by gadget code *)
  Lemma prun_frame {A} (p : Prog F A) : forall s s' a, prun E p s = Some (s', a) ->
    p_v s' = p_v s /\ p_vb s' = p_vb s /\ p_vec s' = p_vec s.
  Proof.
    induction p as [A a0|A|A l r k IH|A x k IH|A x k IH|A c k IH|A lb m k IH|A k IH|A lb k IH|A cb _ k IH]; intros s s' a H; cbn [prun] in H.
    - injection H as <- <-. auto.
    - discriminate.
    - destruct (p_multiply s l r) as [[s1 v]|] eqn:E1; [|discriminate]. apply IH in H. unfold p_multiply in E1.
      destruct (p_eval s l); [|discriminate]. destruct (p_eval s r); [|discriminate]. cbn [opt_bind] in E1. injection E1 as <- _. exact H.
    - destruct (p_allocate s x) as [[s1 v]|] eqn:E1; [|discriminate]. apply IH in H. unfold p_allocate in E1.
      destruct x; [|injection E1 as <- _; exact H]. destruct (p_pend s).
      + destruct (nth_error (p_aR s) n); [|discriminate]. destruct (nth_error (p_aL s) n); [|discriminate].
        destruct (nth_error (p_aO s) n); [|discriminate]. injection E1 as <- _. exact H.
      + injection E1 as <- _. exact H.
    - unfold p_allocate_multiplier in H. destruct x as [[x y]|]; apply IH in H; exact H.
    - apply IH in H. exact H.
    - apply IH in H. exact H.
    - apply IH in H. exact H.
    - destruct (challenge_scalar E (p_tr s) lb) as [[c tr]|]; [|discriminate]. apply IH in H. exact H.
    - apply IH in H. exact H.
  Qed.
  Lemma p_run_all_frame cbs : forall s s', p_run_all E cbs s = Some (Ok s') ->
    p_v s' = p_v s /\ p_vb s' = p_vb s /\ p_vec s' = p_vec s.
  Proof.
    induction cbs as [|cb cbs IH]; intros s s' H; cbn [p_run_all] in H.
    - injection H as <-. auto.
    - destruct (prun E cb s) as [[s1 [u|e]]|] eqn:E1; try discriminate. apply prun_frame in E1. apply IH in H.
      destruct E1 as (-> & -> & ->) in H. exact H.
  Qed.
  Lemma create_randomized_frame s s' : p_create_randomized E s = Some (Ok s') ->
    p_v s' = p_v s /\ p_vb s' = p_vb s /\ p_vec s' = p_vec s.
  Proof.
    intros H. unfold p_create_randomized in H. destruct (p_def (p_set_pend s None)) as [|cb cbs].
    - injection H as <-. auto.
    - apply p_run_all_frame in H. exact H.
  Qed.
  (** wires of the first phase keep their values *)
  Lemma create_randomized_stable s s' : gates_inv s -> p_create_randomized E s = Some (Ok s') ->
    (length (p_aL s) <= length (p_aL s'))%nat /\
    firstn (length (p_aL s)) (p_aL s') = p_aL s /\ firstn (length (p_aL s)) (p_aR s') = p_aR s /\
    firstn (length (p_aL s)) (p_aO s') = p_aO s.
  Proof.
    intros Hg H. change (p_create_randomized E (p_set_pend s None) = Some (Ok s')) in H.
    destruct (set_pend_inv s Hg) as [Hg1 _].
    destruct (p_create_randomized_inv E _ s' Hg1 H) as [Hg' Hext].
    assert (Hiss : forall v x, p_var s v = Some x -> p_var s' v = Some x).
    { intros v x Hv. apply (Hext v x).
      - split; [|intros i Hi; discriminate Hi]. destruct v; cbn in *; congruence.
      - destruct v; exact Hv. }
    assert (Hpre : forall l l' : list F, (forall i x, nth_error l i = Some x -> nth_error l' i = Some x) -> firstn (length l) l' = l).
    { clear. induction l as [|x l IH]; intros l' H; [reflexivity|]. destruct l' as [|x' l']; [specialize (H O x eq_refl); discriminate|].
      cbn. f_equal; [specialize (H O x eq_refl); cbn in H; congruence|]. apply IH. intros i y. apply (H (S i)). }
    destruct Hg as (HR & HO & _). destruct Hg' as (HR' & HO' & _).
    assert (HL : firstn (length (p_aL s)) (p_aL s') = p_aL s) by (apply Hpre; intros i x; apply (Hiss (MulL i) x)).
    split.
    - rewrite <- HL at 1. rewrite firstn_length. lia.
    - split; [exact HL|]. split.
      + rewrite <- HR. apply Hpre; intros i x; apply (Hiss (MulR i) x).
      + rewrite <- HO. apply Hpre; intros i x; apply (Hiss (MulO i) x).
  Qed.
End States.

Section Core.
  Context {F : Field} {V : VSpace F}.
  Add Field FFcore : (f_th F).
  Variable E : TrEnv V.
  Variable pc : PedersenGens V.
  Variable g : BPGens V.
  Implicit Types (s : PState F) (t : VState V).

  Lemma validate_ok (tr : Transcript) lb (P : V) : P <> v0 -> validate E tr lb P = Some (Ok (append_point E tr lb P)).
  Proof. intros H. unfold validate, validate_and_append_point. apply veqb_false in H. rewrite H. reflexivity. Qed.

  Lemma validate_Ts_append op T ds : forall tr tr', append_Ts E op ds T tr = Some tr' ->
    (forall d, In d ds -> d <> op -> nth d T v0 <> v0) -> validate_Ts E op ds T tr = Some (Ok tr').
  Proof.
    induction ds as [|d ds IH]; intros tr tr' H Hnz; cbn [append_Ts validate_Ts] in *; [congruence|].
    destruct (Nat.eqb_spec d op) as [->|Hd]; [apply IH; [exact H|intros; apply Hnz; [right|]; assumption]|].
    destruct (nth_error T_LABELS d) as [lb|]; [|discriminate]. cbn [opt_bind] in *.
    destruct (nth_error T d) as [td|] eqn:ET; [|discriminate]. cbn [opt_bind] in *.
    unfold validate_and_append_point. assert (Htd : td <> v0).
    { rewrite <- (nth_error_nth T d v0 ET). apply Hnz; [left; reflexivity|exact Hd]. }
    apply veqb_false in Htd. rewrite Htd. apply IH; [exact H|]. intros; apply Hnz; [right|]; assumption.
  Qed.

  Lemma wires_eq (s : PState F) : gates_inv s ->
    let n := length (p_aL s) in
    wires (p_asg s) MulL n = p_aL s /\ wires (p_asg s) MulR n = p_aR s /\ wires (p_asg s) MulO n = p_aO s.
  Proof.
    intros (HR & HO & _) n.
    assert (Hw : forall (l : list F) mk, length l = n -> (forall i, p_asg s (mk i) = match nth_error l i with Some x => x | None => 0 end) -> wires (p_asg s) mk n = l).
    { intros l mk Hl Hmk. apply (list_ext_nth _ _ 0); [rewrite wires_length; auto|]. intros i Hi. rewrite wires_length in Hi.
      rewrite nth_wires by exact Hi. rewrite Hmk. destruct (nth_error l i) eqn:En; [symmetry; apply nth_error_nth; exact En|].
      apply nth_error_None in En. lia. }
    split; [|split]; apply Hw; auto.
  Qed.
  Lemma wires_committed (s : PState F) : wires (p_asg s) Committed (length (p_v s)) = p_v s.
  Proof.
    apply (list_ext_nth _ _ 0); [apply wires_length|]. intros i Hi. rewrite wires_length in Hi. rewrite nth_wires by exact Hi.
    unfold p_asg. cbn. destruct (nth_error (p_v s) i) eqn:En; [symmetry; apply nth_error_nth; exact En|].
    apply nth_error_None in En. lia.
  Qed.
  Lemma vc_value_spec (s : PState F) ws : map (@length F) ws = map (fun bv => length (snd bv)) (p_vec s) ->
    vc_value (p_asg s) ws = vsum (zipw ip ws (map snd (p_vec s))).
  Proof.
    intros Hw. unfold vc_value.
    assert (Hl : length ws = length (p_vec s)) by (rewrite <- (map_length (@length F) ws), Hw, map_length; reflexivity).
    rewrite (vsum_fsum _ (length ws)) by (rewrite zipw_length; lia). apply fsum_ext. intros j Hj.
    rewrite (nth_zipw ip ws (map snd (p_vec s)) j [] [] 0) by (rewrite ?map_length; lia). f_equal.
    assert (Hlen : length (nth j ws []) = length (nth j (map snd (p_vec s)) [])).
    { rewrite (nth_map_in snd (p_vec s) j (0, [])) by lia.
      rewrite <- (nth_map_in (@length F) ws j [] O) by lia. rewrite Hw.
      apply (nth_map_in (fun bv => length (snd bv)) (p_vec s) j (0, []) O). lia. }
    apply (list_ext_nth _ _ 0); [rewrite wires_length; exact Hlen|]. intros i Hi. rewrite wires_length in Hi.
    rewrite nth_wires by exact Hi. unfold p_asg. cbn [p_var].
    rewrite (nth_map_in snd (p_vec s) j (0, [])) in * by lia.
    destruct (nth_error (p_vec s) j) as [[b v]|] eqn:En; [|apply nth_error_None in En; lia].
    rewrite (nth_error_nth _ _ _ En) in *. cbn [snd] in *.
    destruct (nth_error v i) eqn:Ei; [symmetry; apply nth_error_nth; exact Ei|]. apply nth_error_None in Ei. lia.
  Qed.

  Lemma nth_us n1 m (u : F) i : (i < n1 + m)%nat -> nth i (repeat 1 n1 ++ repeat u m) 0 = gf n1 u i.
  Proof.
    intros Hi. rewrite nth_app0, repeat_length. unfold gf. destruct (Nat.ltb_spec i n1).
    - rewrite nth_repeat_any. destruct (Nat.ltb_spec i n1); [reflexivity|lia].
    - rewrite nth_repeat_any. destruct (Nat.ltb_spec (i - n1) m); [reflexivity|lia].
  Qed.

  Lemma msm_pedersen (cs vs bs : list F) : length vs = length bs ->
    msm cs (zipw (pc_commit pc) vs bs) = vadd (vsmul (ip cs vs) (pcB pc)) (vsmul (ip cs bs) (pcB_blinding pc)).
  Proof.
    revert vs bs; induction cs as [|c cs IH]; intros [|v vs] [|b bs] H; cbn in *; try discriminate; try vring.
    rewrite IH by lia. unfold pc_commit. cbn. vring.
  Qed.

  Lemma opt_all_slots (sel : nat * nat -> F) (ov : list (nat * nat)) n : (n <= length ov)%nat ->
    opt_all (map (fun j => option_map sel (nth_error ov j)) (seq 0 n)) = Some (map sel (firstn n ov)).
  Proof.
    intros Hn. rewrite (opt_all_map_seq _ (fun j => sel (nth j ov (0, 0)%nat))).
    - f_equal. apply (list_ext_nth _ _ 0); [rewrite !map_length, seq_length, firstn_length; lia|].
      intros i Hi. rewrite map_length, seq_length in Hi. rewrite (nth_map_seq (fun j => sel (nth j ov (0, 0)%nat))) by exact Hi.
      rewrite (nth_map_in sel _ i (0, 0)%nat) by (rewrite firstn_length; lia). rewrite nth_firstn.
      destruct (Nat.ltb_spec i n); [reflexivity|lia].
    - intros i Hi. rewrite (nth_error_nth' _ (0, 0)%nat) by lia. reflexivity.
  Qed.
  Lemma map_firstn_zipw {A B} (f : nat * nat -> A) (ov : list (nat * nat)) (l : list B) n : length l = n ->
    map f (firstn n ov) = zipw (fun o _ => f o) ov l.
  Proof.
    revert ov l; induction n as [|n IH]; intros [|o ov] [|x l] H; cbn in *; try discriminate; try reflexivity.
    f_equal. apply IH. lia.
  Qed.
  Lemma slots_zipw side (ov : list (nat * nat)) (rows : list (list F)) x i n : length rows = n ->
    vsum (zipw (fun xj row => xj * nth i row 0) (map (fun o => fpow x (side o)) (firstn n ov)) rows) = slots_sum side ov rows x i.
  Proof.
    revert ov rows; induction n as [|n IH]; intros [|o ov] [|r rows] H; cbn in *; try discriminate; try reflexivity.
    unfold slots_sum in *. cbn. f_equal. apply IH. lia.
  Qed.
End Core.
