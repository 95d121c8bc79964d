(** * Coordinates: the free space over the generators *)
From Verif Require Import SoundSpec SoundCount UtilProofs CSProofs FlatProofs R1CSPoly R1CSAlg R1CSProofs IPPSpec IPPProofs IPPSound R1CSCore R1CSVerif R1CSMisc SoundSplit SoundIPP.
Local Open Scope F_scope.

(** Linear maps to the field *)
Section Linear.
  Context {F : Field} {W : VSpace F}.
  Add Field FFlin : (f_th F).
  (* vocabulary of specifications and proofs, no code modelled *)
  Definition linear (f : W -> F) : Prop := (forall a b, f (vadd a b) = f a + f b) /\ (forall c a, f (vsmul c a) = c * f a).
  Variable f : W -> F.
  Hypothesis Hf : linear f.
  Lemma lin_add a b : f (vadd a b) = f a + f b. Proof. apply Hf. Qed.
  Lemma lin_smul c a : f (vsmul c a) = c * f a. Proof. apply Hf. Qed.
  Lemma lin_0 : f v0 = 0.
  Proof. rewrite <- (vsmul_0_l v0), lin_smul. ring. Qed.
  Lemma lin_opp a : f (vopp a) = - f a.
  Proof. rewrite vopp_smul, lin_smul. ring. Qed.
  Lemma lin_gsum n (p : nat -> W) : f (gsum n p) = fsum n (fun i => f (p i)).
  Proof. induction n as [|n IH]; cbn [gsum fsum]; [apply lin_0|]. rewrite lin_add, IH. reflexivity. Qed.
  Lemma lin_msm cs ps n : (Nat.min (length cs) (length ps) <= n)%nat -> f (msm cs ps) = fsum n (fun i => nth i cs 0 * f (nth i ps v0)).
  Proof. intros Hn. rewrite (msm_gsum cs ps n Hn), lin_gsum. apply fsum_ext. intros i _. apply lin_smul. Qed.
End Linear.

Section Basis.
  Context {F : Field}.
  Add Field FFbas : (f_th F).

  Section Any.
    Variable m : nat.
    Local Notation W := (FreeV F m).
    Lemma coord_out k (a : W) : (m <= k)%nat -> coord k a = 0.
    Proof. intros Hk. unfold coord. apply nth_overflow. rewrite free_length. exact Hk. Qed.
    Lemma coord_linear k : linear (W := W) (coord k).
    Proof.
      destruct (Nat.lt_ge_cases k m) as [Hk|Hk].
      - split; intros; (etransitivity; [apply coord_mk; exact Hk|reflexivity]).
      - split; intros; rewrite !(coord_out k) by exact Hk; ring.
    Qed.
    (* vocabulary of specifications and proofs, no code modelled *)
    Definition unitv (k : nat) : W := free_mk (fun i => if Nat.eqb i k then 1 else 0).
    Lemma coord_unit i k : (k < m)%nat -> coord i (unitv k) = if Nat.eqb i k then 1 else 0.
    Proof.
      intros Hk. destruct (Nat.lt_ge_cases i m) as [Hi|Hi].
      - apply coord_mk. exact Hi.
      - rewrite coord_out by exact Hi. destruct (Nat.eqb_spec i k); [lia|reflexivity].
    Qed.

    Context {V : VSpace F}.
    Variable gens : list V.
    Hypothesis Lg : length gens = m.
    Lemma free_eval_gsum (a : W) : free_eval gens a = gsum m (fun k => vsmul (coord k a) (nth k gens v0)).
    Proof. unfold free_eval. apply msm_gsum. rewrite free_length. lia. Qed.
    Lemma free_eval_add a b : free_eval gens (vadd (v := W) a b) = vadd (free_eval gens a) (free_eval gens b).
    Proof.
      rewrite !free_eval_gsum, <- gsum_add. apply gsum_ext. intros k Hk. rewrite (lin_add _ (coord_linear k)). vring.
    Qed.
    Lemma free_eval_smul c a : free_eval gens (vsmul (v := W) c a) = vsmul c (free_eval gens a).
    Proof.
      rewrite !free_eval_gsum, <- gsum_smul. apply gsum_ext. intros k Hk. rewrite (lin_smul _ (coord_linear k)). vring.
    Qed.
    Lemma free_eval_0 : free_eval gens (v0 (v := W)) = v0.
    Proof. rewrite <- (vsmul_0_l (V := W) (v0 (v := W))), free_eval_smul. apply vsmul_0_l. Qed.
    Lemma free_eval_msm cs (ps : list W) : free_eval gens (msm cs ps) = msm cs (map (free_eval gens) ps).
    Proof.
      revert ps; induction cs as [|c cs IH]; intros [|p ps]; cbn [msm map]; try apply free_eval_0.
      rewrite free_eval_add, free_eval_smul, IH. reflexivity.
    Qed.
    Lemma free_eval_mk (cs : list F) : length cs = m -> free_eval gens (free_mk (m := m) (fun k => nth k cs 0)) = msm cs gens.
    Proof.
      intros Hc. rewrite free_eval_gsum, (msm_gsum cs gens m) by lia. apply gsum_ext. intros k Hk. rewrite coord_mk by exact Hk. reflexivity.
    Qed.
  End Any.

  Variable N : nat.
  Local Notation W := (FreeV F (2 + (N + N))).
  (* vocabulary of specifications and proofs, no code modelled *)
  Definition bB : W := unitv _ 0.
  (* vocabulary of specifications and proofs, no code modelled *)
  Definition bBb : W := unitv _ 1.
  (* vocabulary of specifications and proofs, no code modelled *)
  Definition bG : list W := map (fun i => unitv _ (2 + i)%nat) (seq 0 N).
  (* vocabulary of specifications and proofs, no code modelled *)
  Definition bH : list W := map (fun i => unitv _ (2 + (N + i))%nat) (seq 0 N).
  Lemma bG_length : length bG = N. Proof. unfold bG. rewrite map_length, seq_length. reflexivity. Qed.
  Lemma bH_length : length bH = N. Proof. unfold bH. rewrite map_length, seq_length. reflexivity. Qed.

  Lemma on_B_linear : linear (W := W) (on_B N). Proof. apply coord_linear. Qed.
  Lemma on_G_linear i : linear (W := W) (on_G N i).
  Proof. unfold on_G. destruct (i <? N)%nat; [apply coord_linear|]. split; intros; ring. Qed.
  Lemma on_H_linear i : linear (W := W) (on_H N i).
  Proof. unfold on_H. destruct (i <? N)%nat; [apply coord_linear|]. split; intros; ring. Qed.

  Ltac unit_case := rewrite coord_unit by lia; match goal with |- (if Nat.eqb ?a ?b then _ else _) = _ => destruct (Nat.eqb_spec a b); try lia; try reflexivity end.
  Lemma on_B_B : on_B N bB = 1. Proof. unfold on_B, bB. unit_case. Qed.
  Lemma on_B_Bb : on_B N bBb = 0. Proof. unfold on_B, bBb. unit_case. Qed.
  Lemma on_B_G k : on_B N (nth k bG v0) = 0.
  Proof.
    destruct (Nat.lt_ge_cases k N) as [Hk|Hk].
    - unfold bG. rewrite nth_map_seq by exact Hk. unfold on_B. unit_case.
    - rewrite nth_overflow by (rewrite bG_length; exact Hk). apply (lin_0 _ on_B_linear).
  Qed.
  Lemma on_B_H k : on_B N (nth k bH v0) = 0.
  Proof.
    destruct (Nat.lt_ge_cases k N) as [Hk|Hk].
    - unfold bH. rewrite nth_map_seq by exact Hk. unfold on_B. unit_case.
    - rewrite nth_overflow by (rewrite bH_length; exact Hk). apply (lin_0 _ on_B_linear).
  Qed.
  Lemma on_G_B i : on_G N i bB = 0. Proof. unfold on_G, bB. destruct (Nat.ltb_spec i N); [unit_case|reflexivity]. Qed.
  Lemma on_G_Bb i : on_G N i bBb = 0. Proof. unfold on_G, bBb. destruct (Nat.ltb_spec i N); [unit_case|reflexivity]. Qed.
  Lemma on_G_G i k : (k < N)%nat -> on_G N i (nth k bG v0) = if Nat.eqb k i then 1 else 0.
  Proof.
    intros Hk. unfold bG, on_G. rewrite nth_map_seq by exact Hk. destruct (Nat.ltb_spec i N).
    - rewrite coord_unit by lia. destruct (Nat.eqb_spec (2 + i) (2 + k)); destruct (Nat.eqb_spec k i); try lia; reflexivity.
    - destruct (Nat.eqb_spec k i); [lia|reflexivity].
  Qed.
  Lemma on_G_H i k : (k < N)%nat -> on_G N i (nth k bH v0) = 0.
  Proof.
    intros Hk. unfold bH, on_G. rewrite nth_map_seq by exact Hk. destruct (Nat.ltb_spec i N); [|reflexivity]. unit_case.
  Qed.
  Lemma on_H_B i : on_H N i bB = 0. Proof. unfold on_H, bB. destruct (Nat.ltb_spec i N); [unit_case|reflexivity]. Qed.
  Lemma on_H_Bb i : on_H N i bBb = 0. Proof. unfold on_H, bBb. destruct (Nat.ltb_spec i N); [unit_case|reflexivity]. Qed.
  Lemma on_H_G i k : (k < N)%nat -> on_H N i (nth k bG v0) = 0.
  Proof.
    intros Hk. unfold bG, on_H. rewrite nth_map_seq by exact Hk. destruct (Nat.ltb_spec i N); [|reflexivity]. unit_case.
  Qed.
  Lemma on_H_H i k : (k < N)%nat -> on_H N i (nth k bH v0) = if Nat.eqb k i then 1 else 0.
  Proof.
    intros Hk. unfold bH, on_H. rewrite nth_map_seq by exact Hk. destruct (Nat.ltb_spec i N).
    - rewrite coord_unit by lia. destruct (Nat.eqb_spec (2 + (N + i)) (2 + (N + k))); destruct (Nat.eqb_spec k i); try lia; reflexivity.
    - destruct (Nat.eqb_spec k i); [lia|reflexivity].
  Qed.

  (** the functionals on combinations of the basis *)
  Lemma on_msm (f : W -> F) (ps : list W) cs i : linear (W := W) f -> length cs = N -> length ps = N -> (i < N)%nat ->
    (forall k, (k < N)%nat -> f (nth k ps v0) = if Nat.eqb k i then 1 else 0) -> f (msm cs ps) = nth i cs 0.
  Proof.
    intros Hl Lc Lp Hi Hf. rewrite (lin_msm f Hl cs ps N) by lia. rewrite (fsum_single N _ i Hi).
    - rewrite Hf, Nat.eqb_refl by exact Hi. ring.
    - intros k Hk Hne. rewrite Hf by exact Hk. apply Nat.eqb_neq in Hne. rewrite Hne. ring.
  Qed.
  Lemma on_msm_0 (f : W -> F) (ps : list W) cs : linear (W := W) f -> length cs = N -> length ps = N ->
    (forall k, (k < N)%nat -> f (nth k ps v0) = 0) -> f (msm cs ps) = 0.
  Proof. intros Hl Lc Lp Hf. rewrite (lin_msm f Hl cs ps N) by lia. apply fsum_zero. intros k Hk. rewrite Hf by exact Hk. ring. Qed.

  Lemma msm_basis (cs : list F) : length cs = (2 + (N + N))%nat -> msm cs ([bB; bBb] ++ bG ++ bH) = free_mk (m := 2 + (N + N)) (fun k => nth k cs 0).
  Proof.
    intros Hc.
    assert (Hb : forall k, (k < 2 + (N + N))%nat -> nth k ([bB; bBb] ++ bG ++ bH) v0 = unitv _ k).
    { intros k Hk. destruct k as [|[|k]]; [reflexivity|reflexivity|]. cbn [app nth]. destruct (Nat.lt_ge_cases k N).
      - rewrite app_nth1 by (rewrite bG_length; assumption). unfold bG. rewrite nth_map_seq by assumption. reflexivity.
      - rewrite app_nth2 by (rewrite bG_length; assumption). rewrite bG_length. unfold bH. rewrite nth_map_seq by lia. f_equal. lia. }
    apply coord_ext. intros k Hk. rewrite coord_mk by exact Hk.
    rewrite (lin_msm _ (coord_linear _ k) cs _ (2 + (N + N))).
    2:{ rewrite Hc. lia. }
    rewrite (fsum_single _ _ k Hk).
    - rewrite Hb, coord_unit, Nat.eqb_refl by exact Hk. ring.
    - intros i Hi Hne. rewrite Hb, coord_unit by exact Hi. destruct (Nat.eqb_spec k i); [lia|ring].
  Qed.

  Lemma combined_msm (scs : list F) (pts : list W) (fx : list F) : length scs = length pts -> length fx = (2 + (N + N))%nat ->
    combined N scs pts fx = msm (scs ++ fx) (pts ++ [bB; bBb] ++ bG ++ bH).
  Proof. intros H1 H2. rewrite msm_app by exact H1. unfold combined. rewrite msm_basis by exact H2. reflexivity. Qed.

  Lemma combined_eval {V : VSpace F} (gens : list V) (scs : list F) (pts : list W) (fx : list F) :
    length gens = (2 + (N + N))%nat -> length scs = length pts -> length fx = (2 + (N + N))%nat ->
    free_eval gens (combined N scs pts fx) = msm (scs ++ fx) (map (free_eval gens) pts ++ gens).
  Proof.
    intros H1 H2 H3. rewrite msm_app by (rewrite map_length; exact H2). unfold combined.
    rewrite free_eval_add, free_eval_msm, free_eval_mk by assumption. reflexivity.
  Qed.

  (** openings over the basis *)
  Section Opening.
    Variables (gf hf : list F) (w : F).
    Hypotheses (Lgf : length gf = N) (Lhf : length hf = N) (Hw : w <> 0).
    Hypotheses (Hgf : forall i, (i < N)%nat -> nth i gf 0 <> 0) (Hhf : forall i, (i < N)%nat -> nth i hf 0 <> 0).
    Local Notation Q := (vsmul (v := W) w bB).

    Lemma rep_coords a b (c : F) : length a = N -> length b = N ->
      let P := vadd (vadd (msm a (scaled gf bG)) (msm b (scaled hf bH))) (vsmul c Q) in
      on_B N P = c * w /\ (forall i, (i < N)%nat -> on_G N i P = nth i a 0 * nth i gf 0) /\ (forall i, (i < N)%nat -> on_H N i P = nth i b 0 * nth i hf 0).
    Proof.
      intros La Lb P. unfold P. rewrite <- !msm_zipw_mul.
      assert (L1 : length (zipw fmul a gf) = N) by (rewrite zipw_length; lia).
      assert (L2 : length (zipw fmul b hf) = N) by (rewrite zipw_length; lia).
      split; [|split].
      - rewrite !(lin_add _ on_B_linear), !(lin_smul _ on_B_linear), on_B_B.
        rewrite !(on_msm_0 _ _ _ on_B_linear) by (auto using bG_length, bH_length, on_B_G, on_B_H). ring.
      - intros i Hi. rewrite !(lin_add _ (on_G_linear i)), !(lin_smul _ (on_G_linear i)), on_G_B.
        rewrite (on_msm _ _ _ i (on_G_linear i) L1 bG_length Hi (fun k Hk => on_G_G i k Hk)).
        rewrite (on_msm_0 _ _ _ (on_G_linear i) L2 bH_length (fun k Hk => on_G_H i k Hk)). rewrite nth_zipw_mul. ring.
      - intros i Hi. rewrite !(lin_add _ (on_H_linear i)), !(lin_smul _ (on_H_linear i)), on_H_B.
        rewrite (on_msm _ _ _ i (on_H_linear i) L2 bH_length Hi (fun k Hk => on_H_H i k Hk)).
        rewrite (on_msm_0 _ _ _ (on_H_linear i) L1 bG_length (fun k Hk => on_H_G i k Hk)). rewrite nth_zipw_mul. ring.
    Qed.

    Lemma basis_independent : ~ nontrivial_relation Q (scaled gf bG) (scaled hf bH).
    Proof.
      intros (a & b & c & La & Lb & Hz & Hnt).
      assert (LG : length (scaled gf bG) = N) by (rewrite scaled_length; rewrite ?bG_length; congruence).
      assert (LH : length (scaled hf bH) = N) by (rewrite scaled_length; rewrite ?bH_length; congruence).
      rewrite LG in La. rewrite LH in Lb.
      destruct (rep_coords a b c La Lb) as (R1 & R2 & R3). cbv zeta in R1, R2, R3. rewrite Hz in R1, R2, R3.
      assert (Hall : forall (l f : list F), length l = N -> (forall i, (i < N)%nat -> nth i f 0 <> 0) -> (forall i, (i < N)%nat -> 0 = nth i l 0 * nth i f 0) -> ~ Exists (fun x => x <> 0) l).
      { intros l f Ll Hnz He Hex. apply Exists_exists in Hex as (x & Hin & Hx). apply (In_nth _ _ 0) in Hin as (i & Hi & <-).
        rewrite Ll in Hi. specialize (He i Hi). symmetry in He. apply fmul_eq_0 in He as [He|He]; [exact (Hx He)|exact (Hnz i Hi He)]. }
      destruct Hnt as [He|[He|He]].
      - revert He. apply (Hall a gf La Hgf). intros i Hi. rewrite <- (R2 i Hi). symmetry. apply (lin_0 _ (on_G_linear i)).
      - revert He. apply (Hall b hf Lb Hhf). intros i Hi. rewrite <- (R3 i Hi). symmetry. apply (lin_0 _ (on_H_linear i)).
      - rewrite (lin_0 _ on_B_linear) in R1. symmetry in R1. apply fmul_eq_0 in R1 as [R1|R1]; auto.
    Qed.

    Lemma opening_coords P : has_opening Q (scaled gf bG) (scaled hf bH) P ->
      on_B N P = w * fsum N (fun i => (on_G N i P * finv (nth i gf 0)) * (on_H N i P * finv (nth i hf 0))).
    Proof.
      intros (a & b & La & Lb & ->).
      assert (LG : length (scaled gf bG) = N) by (rewrite scaled_length; rewrite ?bG_length; congruence).
      assert (LH : length (scaled hf bH) = N) by (rewrite scaled_length; rewrite ?bH_length; congruence).
      rewrite LG in La. rewrite LH in Lb. unfold pcom.
      destruct (rep_coords a b (ip a b) La Lb) as (R1 & R2 & R3). cbv zeta in R1, R2, R3.
      set (P := vadd _ (vsmul _ (vsmul _ _))) in *. clearbody P. rewrite R1, (ip_fsum a b N) by lia.
      rewrite (fmul_comm _ w). f_equal. apply fsum_ext. intros i Hi. rewrite (R2 i Hi), (R3 i Hi). field. auto.
    Qed.
  End Opening.
End Basis.
