(** * Exceptional cases of re_randomize: how rare they are, and what they allow *)
From Verif Require Export RerandProofs.
From Verif Require Import UtilProofs CSProofs Lockstep CSMore.
From Coq Require Import Lia.
Local Open Scope F_scope.

Section RM.
  Context {F : Field} {S : PField} {C : SWCurve F S}.
  Add Field FFrm : (f_th F).
  Add Field FSrm : (f_th S).
  Implicit Types (h P T : C) (r : S).
  Notation SS := Datatypes.S.
  Notation m := (windows (S:=S)).
  Notation q := (Z.of_N (pf_mod S)).

  (** ** digits *)
  Lemma modulus_lt : (pf_mod S < 2 ^ N.of_nat (modulus_bits S))%N.
  Proof. unfold modulus_bits. apply size_lt. Qed.
  Lemma digits_of_spec r i : (1 <= i)%nat -> Z.of_nat (digits_of r i) = ((Z.of_N (pf_repr r) / 8 ^ Z.of_nat (i - 1)) mod 8)%Z.
  Proof.
    intros Hi. unfold digits_of. rewrite <- nat_N_Z, window_index_mod.
    - rewrite N2Z.inj_mod by lia. f_equal. rewrite N.shiftr_div_pow2, N2Z.inj_div, N2Z.inj_pow, nat_N_Z by (apply N.pow_nonzero; lia). f_equal.
      rewrite Nat2Z.inj_mul. change (Z.of_N 2 ^ (Z.of_nat 3 * Z.of_nat (i - 1)))%Z with (2 ^ (3 * Z.of_nat (i - 1)))%Z. rewrite Z.pow_mul_r by lia. reflexivity.
    - eapply N.lt_trans; [apply pf_repr_lt|apply modulus_lt].
  Qed.
  Lemma digits_total r : digits_int (digits_of r) m = Z.of_N (pf_repr r).
  Proof. unfold digits_of, windows. apply digits_full, pf_repr_lt. Qed.

  (** ** exceptional scalars *)
  (** window [i] is plus or minus the sum of the earlier windows *)
  Definition exceptional r : Prop := exists i, (2 <= i <= m)%nat /\
    ((win_int m i (digits_of r i) - acc_int m (digits_of r) (i - 1)) mod q = 0 \/
     (win_int m i (digits_of r i) + acc_int m (digits_of r) (i - 1)) mod q = 0)%Z.
  Lemma fZ_smul_eq h a b : h <> v0 -> (vsmul (fZ a) h = vsmul (fZ b) h <-> ((a - b) mod q = 0)%Z).
  Proof.
    intros Hh. rewrite <- fZ_eq_0, fZ_sub. split.
    - intros H. apply (proj2 (fsub_0_iff _ _)). apply (vsmul_inj_l _ _ h Hh H).
    - intros H. apply (proj1 (fsub_0_iff _ _)) in H. rewrite H. reflexivity.
  Qed.
  Lemma fZ_smul_opp h a : vopp (vsmul (fZ a) h) = vsmul (fZ (- a)) h.
  Proof. rewrite fZ_opp. vring. Qed.
  Lemma acc_pt_0 h d i : acc_pt h m v0 d i = vsmul (fZ (acc_int m d i)) h.
  Proof. unfold acc_pt. apply vadd_0_l. Qed.
  Lemma smooth_iff h ts r : good_tables h ts -> (smooth h m v0 (digits_of r) <-> ~ exceptional r).
  Proof.
    intros Hgt. pose proof (good_h _ _ Hgt) as Hh. pose proof (good_windows _ _ Hgt) as Hm. destruct Hgt as [_ Hg]. split.
    - intros [_ Hs] (i & Hi & Hcol). destruct (Hs i ltac:(lia)) as [N1 N2]. rewrite acc_pt_0 in N1, N2. unfold win_pt in *. rewrite fZ_smul_opp in N2. destruct Hcol as [H|H].
      + apply N1. apply fZ_smul_eq; [exact Hh|exact H].
      + apply N2. apply fZ_smul_eq; [exact Hh|]. rewrite <- H. f_equal. lia.
    - intros Hn. split.
      + rewrite acc_pt_0. cbn [acc_int]. destruct (Hg 1%nat ltac:(lia)) as (r0 & r1 & _ & Hc). specialize (Hc (digits_of r 1) (window_index_lt _ _ _)). rewrite Z.add_0_l. eapply coords_neq_0. exact Hc.
      + intros i Hi. rewrite acc_pt_0. unfold win_pt. rewrite fZ_smul_opp. split; intros H; apply fZ_smul_eq in H; auto; apply Hn; exists i; (split; [lia|]); [left; exact H|right]. rewrite <- H. f_equal. lia.
  Qed.

  (** The exceptional scalars: 0, eight values for the last window and 72 for the one
      before it. *)
  Definition bad_ints : list Z :=
    (0 :: map (fun d => 2 * Z.of_nat d * 8 ^ Z.of_nat (m - 1) - 2 * eights (m - 1)) (seq 0 8)
    ++ map (fun d => (Z.of_nat d - 1) * 8 ^ Z.of_nat (m - 1) - eights (m - 2)) (seq 0 8)
    ++ flat_map (fun d => map (fun e => 2 * Z.of_nat e * 8 ^ Z.of_nat (m - 2) + (Z.of_nat d + 1) * 8 ^ Z.of_nat (m - 1) - eights (m - 2)) (seq 0 8)) (seq 0 8))%Z.
  Lemma bad_ints_length : length bad_ints = 81%nat.
  Proof. unfold bad_ints. cbn [seq flat_map map app length]. reflexivity. Qed.
  Lemma q_lower : (8 ^ Z.of_nat (m - 1) <= 2 * q)%Z.
  Proof.
    assert (Hq : (2 ^ N.of_nat (modulus_bits S) <= 2 * pf_mod S)%N).
    { unfold modulus_bits. rewrite N2Nat.id. pose proof (pf_mod_pos (S:=S)). rewrite N.size_log2, N.pow_succ_r by lia. pose proof (N.log2_spec (pf_mod S) ltac:(lia)). lia. }
    apply N2Z.inj_le in Hq. rewrite N2Z.inj_mul, N2Z.inj_pow, nat_N_Z in Hq. change (Z.of_N 2) with 2%Z in Hq.
    assert (H8 : (8 ^ Z.of_nat (m - 1) <= 2 ^ Z.of_nat (modulus_bits S))%Z).
    { change 8%Z with (2 ^ 3)%Z. rewrite <- Z.pow_mul_r by lia. apply Z.pow_le_mono_r; [lia|]. unfold windows. pose proof (Nat.div_mod (modulus_bits S) 3 ltac:(lia)). lia. }
    lia.
  Qed.
  Lemma digits_lt r k : (digits_of r k < 8)%nat. Proof. apply window_index_lt. Qed.
  Lemma exceptional_bad r : exceptional r -> In r (map fZ bad_ints).
  Proof.
    intros (i & Hi & Hcol). set (d := digits_of r) in *. pose proof (digits_lt r) as Hd. fold d in Hd.
    pose proof (fZ_repr r) as Hr. rewrite <- digits_total in Hr. fold d in Hr.
    assert (Hmem : forall z, In z bad_ints -> fZ z = r -> In r (map fZ bad_ints)) by (intros z Hz <-; apply in_map; exact Hz).
    assert (Hseq : forall k, In (d k) (seq 0 8)) by (intros k; apply in_seq; specialize (Hd k); lia).
    destruct (Nat.eq_dec i m) as [->|Hne].
    - pose proof (acc_int_low m d (m - 1) ltac:(lia)) as Ha. set (D := digits_int d (m - 1)) in *.
      assert (Hfull : digits_int d m = (D + Z.of_nat (d m) * 8 ^ Z.of_nat (m - 1))%Z).
      { subst D. replace m with (SS (m - 1)) at 1 by lia. cbn [digits_int]. replace (SS (m - 1)) with m by lia. reflexivity. }
      assert (Hw : win_int m m (d m) = (Z.of_nat (d m) * 8 ^ Z.of_nat (m - 1) - eights (m - 1))%Z) by (unfold win_int, right_int; rewrite Nat.ltb_irrefl; lia).
      destruct Hcol as [H|H]; apply fZ_eq_0 in H.
      + apply (Hmem (2 * Z.of_nat (d m) * 8 ^ Z.of_nat (m - 1) - 2 * eights (m - 1))%Z).
        * right. apply in_or_app. left. apply in_map_iff. exists (d m). split; [reflexivity|apply Hseq].
        * rewrite <- Hr, Hfull. transitivity (fZ ((D + Z.of_nat (d m) * 8 ^ Z.of_nat (m - 1)) + (win_int m m (d m) - acc_int m d (m - 1))) : S); [f_equal; rewrite Hw, Ha; lia|]. rewrite (fZ_add (D + _)), H. ring.
      + apply (Hmem 0%Z); [left; reflexivity|]. rewrite <- Hr, Hfull. transitivity (fZ ((D + Z.of_nat (d m) * 8 ^ Z.of_nat (m - 1)) - (win_int m m (d m) + acc_int m d (m - 1))) : S); [f_equal; rewrite Hw, Ha; lia|]. rewrite (fZ_sub (D + _)), H. ring.
    - destruct (Nat.eq_dec i (m - 1)) as [->|Hne2].
      + replace (m - 1 - 1)%nat with (m - 2)%nat in Hcol by lia. pose proof (acc_int_low m d (m - 2) ltac:(lia)) as Ha. set (D := digits_int d (m - 2)) in *.
        assert (Hfull : digits_int d m = (D + Z.of_nat (d (m - 1)%nat) * 8 ^ Z.of_nat (m - 2) + Z.of_nat (d m) * 8 ^ Z.of_nat (m - 1))%Z).
        { subst D. replace m with (SS (SS (m - 2))) at 1 by lia. cbn [digits_int]. replace (SS (SS (m - 2))) with m by lia. replace (SS (m - 2)) with (m - 1)%nat by lia. reflexivity. }
        assert (Hw : win_int m (m - 1) (d (m - 1)%nat) = (Z.of_nat (d (m - 1)%nat) * 8 ^ Z.of_nat (m - 2) + 8 ^ Z.of_nat (m - 1))%Z).
        { unfold win_int, right_int. destruct (Nat.ltb_spec (m - 1) m); [|lia]. replace (m - 1 - 1)%nat with (m - 2)%nat by lia. reflexivity. }
        destruct Hcol as [H|H]; apply fZ_eq_0 in H.
        * apply (Hmem (2 * Z.of_nat (d (m - 1)%nat) * 8 ^ Z.of_nat (m - 2) + (Z.of_nat (d m) + 1) * 8 ^ Z.of_nat (m - 1) - eights (m - 2))%Z).
          -- right. apply in_or_app. right. apply in_or_app. right. apply in_flat_map. exists (d m). split; [apply Hseq|]. apply in_map_iff. exists (d (m - 1)%nat). split; [reflexivity|apply Hseq].
          -- rewrite <- Hr, Hfull. transitivity (fZ ((D + Z.of_nat (d (m - 1)%nat) * 8 ^ Z.of_nat (m - 2) + Z.of_nat (d m) * 8 ^ Z.of_nat (m - 1)) + (win_int m (m - 1) (d (m - 1)%nat) - acc_int m d (m - 2))) : S); [f_equal; rewrite Hw, Ha; lia|]. rewrite (fZ_add (D + _ + _)), H. ring.
        * apply (Hmem ((Z.of_nat (d m) - 1) * 8 ^ Z.of_nat (m - 1) - eights (m - 2))%Z).
          -- right. apply in_or_app. right. apply in_or_app. left. apply in_map_iff. exists (d m). split; [reflexivity|apply Hseq].
          -- rewrite <- Hr, Hfull. transitivity (fZ ((D + Z.of_nat (d (m - 1)%nat) * 8 ^ Z.of_nat (m - 2) + Z.of_nat (d m) * 8 ^ Z.of_nat (m - 1)) - (win_int m (m - 1) (d (m - 1)%nat) + acc_int m d (m - 2))) : S); [f_equal; rewrite Hw, Ha; lia|]. rewrite (fZ_sub (D + _ + _)), H. ring.
      + exfalso. pose proof (diff_bounds m d i Hd ltac:(lia)) as H1. pose proof (sum_bounds m d i Hd ltac:(lia)) as H2. pose proof q_lower as Hq. pose proof (pow8_pos (i - 1)) as Hp.
        assert (H64 : (64 * 8 ^ Z.of_nat (i - 1) <= 8 ^ Z.of_nat (m - 1))%Z).
        { replace (m - 1)%nat with (i - 1 + 2 + (m - 2 - i))%nat by lia. rewrite (Nat2Z.inj_add (i - 1 + 2)), Z.pow_add_r by lia. rewrite Nat2Z.inj_add, Z.pow_add_r by lia. change (8 ^ Z.of_nat 2)%Z with 64%Z. pose proof (pow8_pos (m - 2 - i)). nia. }
        destruct Hcol as [H|H]; rewrite Z.mod_small in H; lia.
  Qed.
  (** 0 is exceptional. *)
  Lemma zero_exceptional : (2 <= m)%nat -> exceptional (0 : S).
  Proof.
    intros Hm. exists m. split; [lia|]. right. 
    assert (E : (win_int m m (digits_of (0 : S) m) + acc_int m (digits_of (0 : S)) (m - 1) = acc_int m (digits_of (0 : S)) m)%Z).
    { replace m with (SS (m - 1)) at 7 by lia. cbn [acc_int]. replace (SS (m - 1)) with m by lia. lia. }
    rewrite E, acc_int_full, digits_total by lia. apply fZ_eq_0. apply fZ_repr.
  Qed.

  (** ** when no window can equal the accumulator *)
  Lemma apart_of_modulus : (15 * 8 ^ Z.of_nat (m - 2) <= q)%Z -> apart S.
  Proof.
    intros Hq d i Hd Hi H. pose proof (diff_bounds m d i Hd ltac:(lia)) as H1.
    assert (H8 : (8 ^ Z.of_nat (i - 1) <= 8 ^ Z.of_nat (m - 2))%Z) by (apply Z.pow_le_mono_r; lia).
    rewrite Z.mod_small in H; lia.
  Qed.

  (** ** the cheating prover: any target *)
  (** the targets this particular cheating prover misses *)
  Definition missed h P : list C :=
    let e := fun i => win_pt h m i (digits_of (0 : S) i) in
    let a := fun i => vsmul (fZ (acc_int m (digits_of (0 : S)) i)) h in
    v0 :: vadd P P :: vadd P (vopp (a 1%nat)) :: 
    flat_map (fun i => [vadd P (vsub (e i) (a (i - 1)%nat)); vadd P (vsub (vopp (e i)) (a (i - 1)%nat))]) (seq 2 (m - 1)).
  Lemma flat_map2_length {A B} (f g : A -> B) l : length (flat_map (fun x => [f x; g x]) l) = (2 * length l)%nat.
  Proof. induction l as [|x l IH]; [reflexivity|]. cbn. cbn in IH. rewrite IH. lia. Qed.
  Lemma missed_length h P : (1 <= m)%nat -> length (missed h P) = (2 * m + 1)%nat.
  Proof. intros Hm. unfold missed. cbn [length]. rewrite flat_map2_length, seq_length. lia. Qed.
  Lemma vsub_move (x y z : C) : x = vadd y z -> vsub x z = y. Proof. intros ->. vring. Qed.
  Lemma cheat_smooth h ts P T : good_tables h ts -> ~ In T (missed h P) ->
    smooth h m (vsub T P) (digits_of (0 : S)) /\ vadd (vsub T P) (vsmul (0 : S) h) <> P /\ vadd (vsub T P) (vsmul (0 : S) h) <> vopp P.
  Proof.
    intros Hgt HT. pose proof (good_windows _ _ Hgt) as Hm. unfold missed in HT. cbv zeta in HT. set (a := fun i => vsmul (fZ (acc_int m (digits_of (0 : S)) i)) h) in *.
    assert (N0 : T <> v0) by (intros H; apply HT; left; auto). assert (N1 : T <> vadd P P) by (intros H; apply HT; right; left; auto).
    assert (N2 : T <> vadd P (vopp (a 1%nat))) by (intros H; apply HT; do 2 right; left; auto).
    split; [split|split].
    - unfold acc_pt. fold (a 1%nat). intros H. apply N2. transitivity (vadd (vadd P (vopp (a 1%nat))) (vadd (vsub T P) (a 1%nat))); [vring|]. rewrite H. vring.
    - intros i Hi. unfold acc_pt. fold (a (i - 1)%nat).
      assert (Hin : forall X, In X [vadd P (vsub (win_pt h m i (digits_of (0 : S) i)) (a (i - 1)%nat)); vadd P (vsub (vopp (win_pt h m i (digits_of (0 : S) i))) (a (i - 1)%nat))] -> T <> X).
      { intros X HX ->. apply HT. do 3 right. apply in_flat_map. exists i. split; [apply in_seq; lia|exact HX]. }
      split; intros H.
      + apply (Hin _ (or_introl eq_refl)). rewrite H. vring.
      + apply (Hin _ (or_intror (or_introl eq_refl))). rewrite H. vring.
    - rewrite vsmul_0_l. intros H. apply N1. transitivity (vadd (vadd (vsub T P) v0) P); [vring|]. rewrite H. vring.
    - rewrite vsmul_0_l. intros H. apply N0. transitivity (vadd (vadd (vsub T P) v0) P); [vring|]. rewrite H. vring.
  Qed.
  Lemma cheat_target h P T : vadd P (vadd (vsub T P) (vsmul (0 : S) h)) = T.
  Proof. rewrite vsmul_0_l. vring. Qed.
End RM.

Lemma vrun_bind {F : Field} {V : VSpace F} (E : TrEnv V) {A B} (p : Prog F A) (f : A -> Prog F B) t :
  vrun E (pbind p f) t = match vrun E p t with Some (t', a) => vrun E (f a) t' | None => None end.
Proof.
  revert t. induction p as [A a0|A|A l r k IH|A x k IH|A x k IH|A c k IH|A lb m k IH|A k IH|A lb k IH|A cb _ k IH]; intros t; cbn [pbind vrun]; auto.
  - destruct (v_multiply t l r) as [t' v]. auto.
  - destruct (v_allocate t x) as [t' v]. auto.
  - destruct (v_allocate_multiplier t x) as [t' v]. auto.
  - destruct (challenge_scalar E (v_tr t) lb) as [[c t']|]; auto.
Qed.
