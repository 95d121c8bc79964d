(** * The cheating prover is accepted *)
From Verif Require Import SoundSpec Forge UtilProofs CSProofs Lockstep FlatProofs CSMore R1CSPoly R1CSAlg R1CSProofs R1CSCore R1CSMain R1CSVerif R1CSMore R1CSMisc IPPSpec IPPProofs.
Local Open Scope F_scope.

(** ** the slots *)
Section Slots.
  Local Open Scope nat_scope.
  Lemma filter_neq_seq k a n : a <= k < a + n -> filter (fun d => negb (Nat.eqb d k)) (seq a n) = seq a (k - a) ++ seq (S k) (a + n - S k).
  Proof.
    intros H. replace n with ((k - a) + (1 + (a + n - S k))) at 1 by lia. rewrite seq_app, filter_app. f_equal.
    - assert (Hall : forall l, (forall x, In x l -> x <> k) -> filter (fun d => negb (Nat.eqb d k)) l = l).
      { induction l as [|x l IH]; intros Hx; [reflexivity|]. cbn [filter]. assert (x <> k) by (apply Hx; left; reflexivity).
        apply Nat.eqb_neq in H0. rewrite H0. cbn [negb]. f_equal. apply IH. intros y Hy. apply Hx. right. exact Hy. }
      apply Hall. intros x Hx. apply in_seq in Hx. lia.
    - replace (a + (k - a)) with k by lia. cbn [seq Nat.add filter]. rewrite Nat.eqb_refl. cbn [negb].
      assert (Hall : forall l, (forall x, In x l -> x <> k) -> filter (fun d => negb (Nat.eqb d k)) l = l).
      { induction l as [|x l IH]; intros Hx; [reflexivity|]. cbn [filter]. assert (x <> k) by (apply Hx; left; reflexivity).
        apply Nat.eqb_neq in H0. rewrite H0. cbn [negb]. f_equal. apply IH. intros y Hy. apply Hx. right. exact Hy. }
      apply Hall. intros x Hx. apply in_seq in Hx. lia.
  Qed.
  Lemma op_vec_nth op j d : 2 <= op -> op mod 2 = 0 -> j < op - 1 ->
    nth j (skipn 2 (op_splits op)) d = let r := if j + 1 <? op / 2 then j + 1 else j + 2 in (op - r, r).
  Proof.
    intros H2 He Hj. pose proof (Nat.div_mod op 2 ltac:(lia)) as Hd. set (mid := op / 2) in *.
    change (skipn 2 (op_splits op)) with (map (fun r_deg => (op - r_deg, r_deg)) (filter (fun r_deg => negb (Nat.eqb r_deg mid)) (seq 1 op))).
    rewrite filter_neq_seq by lia.
    rewrite (nth_map_in (fun r => (op - r, r)) _ _ 0) by (rewrite app_length, !seq_length; lia).
    replace (nth j (seq 1 (mid - 1) ++ seq (S mid) (1 + op - S mid)) 0) with (if j + 1 <? mid then j + 1 else j + 2); [reflexivity|].
    destruct (Nat.ltb_spec (j + 1) mid).
    - rewrite app_nth1 by (rewrite seq_length; lia). rewrite seq_nth by lia. lia.
    - rewrite app_nth2 by (rewrite seq_length; lia). rewrite seq_length, seq_nth by lia. lia.
  Qed.
  Lemma op_facts m : 2 <= op_degree_of m /\ op_degree_of m mod 2 = 0 /\
    (Nat.odd m = true -> op_degree_of m = m + 1) /\ (Nat.even m = true -> op_degree_of m = m + 2).
  Proof.
    unfold op_degree_of. pose proof (Nat.div_mod m 2 ltac:(lia)) as Hd. split; [lia|]. split.
    { replace (2 + 2 * (m / 2)) with ((1 + m / 2) * 2) by lia. apply Nat.mod_mul. lia. }
    split; intros H.
    - apply Nat.odd_spec in H as [k ->]. replace ((2 * k + 1) / 2) with k by (apply (Nat.div_unique _ _ _ 1); lia). lia.
    - apply Nat.even_spec in H as [k ->]. replace (2 * k / 2) with k by (apply (Nat.div_unique _ _ _ 0); lia). lia.
  Qed.
  Lemma slot_zero m j : j < m -> (slot (op_degree_of m) j = 0 <-> Nat.odd m = true /\ j = m - 1).
  Proof.
    intros Hj. destruct (op_facts m) as (H2 & He & Ho & Hev). pose proof (op_degree_ge m).
    unfold slot. rewrite op_vec_nth by (try assumption; lia). cbn [fst].
    pose proof (Nat.div_mod (op_degree_of m) 2 ltac:(lia)) as Hd.
    destruct (Nat.odd m) eqn:Hodd.
    - specialize (Ho eq_refl). destruct (Nat.ltb_spec (j + 1) (op_degree_of m / 2)); split; intros; try lia.
    - rewrite <- Nat.negb_even in Hodd. apply negb_false_iff in Hodd. specialize (Hev Hodd).
      destruct (Nat.ltb_spec (j + 1) (op_degree_of m / 2)); split; intros H'; try lia; destruct H'; discriminate.
  Qed.
End Slots.

(** ** the polynomials *)
Section Polys.
  Context {F : Field}.
  Add Field FFfp : (f_th F).

  Lemma build_polys_rect ncomm n y y_inv (aL aR aO sL sR : list F) (fl : Flat F) (vecs : list (list F)) l r t :
    let op := op_degree_of ncomm in
    length vecs = ncomm -> map (@length F) (wVC fl) = map (@length F) vecs ->
    Forall (fun v => (length v <= n)%nat) vecs ->
    build_polys op (op_splits op) n y y_inv aL aR aO sL sR fl vecs = Some (l, r, t) ->
    length l = (op + 2)%nat /\ length r = (op + 2)%nat /\ rect n l /\ rect n r /\ vp_inner_product l r = Some t.
  Proof.
    intros op Hlen Hw Hvn Hb.
    assert (He : (op mod 2 = 0)%nat) by (unfold op; rewrite op_degree_even, Nat.mul_comm; apply Nat.mod_mul; lia).
    assert (Hop : (2 <= op)%nat) by (unfold op; rewrite op_degree_even; lia).
    set (mid := (op / 2)%nat) in *. set (op_vec := skipn 2 (op_splits op)) in *.
    assert (Hmid : (1 <= mid /\ mid + mid = op)%nat).
    { unfold mid. pose proof (Nat.div_mod op 2 ltac:(lia)). lia. }
    destruct (op_vec_disjoint op He Hop) as (Hdis & Nd1 & Nd2).
    unfold build_polys in Hb. change (nth 0 (op_splits op) (0, 0)%nat) with (mid, mid) in Hb. change (nth 1 (op_splits op) (0, 0)%nat) with (op, 0)%nat in Hb.
    cbn [fst snd] in Hb.
    pose proof (vp_zero_ok (F:=F) n (op + 1)) as H0. replace (op + 1 + 1)%nat with (op + 2)%nat in H0 by lia.
    match type of Hb with context [write_row _ mid ?v] => destruct (write_row_spec n (op + 2) [] _ mid v H0 ltac:(lia) ltac:(intros []) (map_seq_le _ _)) as (l1 & E1 & Q1 & R1 & C1) end.
    rewrite E1 in Hb. cbn [opt_bind] in Hb. clear E1 Q1 C1.
    match type of Hb with context [write_row _ mid ?v] => destruct (write_row_spec n (op + 2) [] _ mid v H0 ltac:(lia) ltac:(intros []) (map_seq_le _ _)) as (r1 & E1 & Q1 & R2 & C1) end.
    rewrite E1 in Hb. cbn [opt_bind] in Hb. clear E1 Q1 C1.
    match type of Hb with context [write_row _ op ?v] => destruct (write_row_spec n (op + 2) _ _ op v R1 ltac:(lia) ltac:(intros [?|[]]; lia) (map_seq_le _ _)) as (l2 & E1 & Q1 & R3 & C1) end.
    rewrite E1 in Hb. cbn [opt_bind] in Hb. clear E1 Q1 C1.
    match type of Hb with context [write_row _ 0 ?v] => destruct (write_row_spec n (op + 2) _ _ 0 v R2 ltac:(lia) ltac:(intros [?|[]]; lia) (map_seq_le _ _)) as (r2 & E1 & Q1 & R4 & C1) end.
    rewrite E1 in Hb. cbn [opt_bind] in Hb. clear E1 Q1 C1.
    match type of Hb with context [write_row _ (op + 1) ?v] => destruct (write_row_spec n (op + 2) _ _ (op + 1) v R3 ltac:(lia) ltac:(intros [?|[?|[]]]; lia) (map_seq_le _ _)) as (l3 & E1 & Q1 & R5 & C1) end.
    rewrite E1 in Hb. cbn [opt_bind] in Hb. clear E1 Q1 C1.
    match type of Hb with context [write_row _ (op + 1) ?v] => destruct (write_row_spec n (op + 2) _ _ (op + 1) v R4 ltac:(lia) ltac:(intros [?|[?|[]]]; lia) (map_seq_le _ _)) as (r3 & E1 & Q1 & R6 & C1) end.
    rewrite E1 in Hb. cbn [opt_bind] in Hb. clear E1 Q1 C1.
    destruct (write_veccom_spec n op vecs op_vec (wVC fl) _ _ l3 r3 R5 R6 Hw) as (l' & r' & Wl & Wr & E7 & R7 & R8 & _).
    { unfold op_vec. rewrite skipn_length, op_splits_length by exact Hop. pose proof (op_degree_ge ncomm). fold op in H. lia. }
    { exact Hvn. } { exact Hdis. } { exact Nd1. } { exact Nd2. }
    fold op_vec in Hb. rewrite E7 in Hb. cbn [opt_bind] in Hb.
    destruct (vp_inner_product l' r') as [t'|] eqn:Ei; cbn [opt_bind] in Hb; [|discriminate].
    destruct (Nat.eqb _ _) in Hb; cbn [guard] in Hb; [|discriminate].
    assert (l' = l /\ r' = r /\ t' = t) as (-> & -> & ->) by (repeat split; congruence).
    destruct R7 as (Ll & Rl & _). destruct R8 as (Lr & Rr & _). auto.
  Qed.

  Lemma rect_nth_row n (p : list (list F)) d : rect n p -> (d < length p)%nat -> length (nth d p []) = n.
  Proof. intros H Hd. unfold rect in H. rewrite Forall_forall in H. apply H. apply nth_In. exact Hd. Qed.

  Lemma zipw_add_zero (v w : list F) i : length v = length w -> nth i (zipw fadd v w) 0 = nth i v 0 + nth i w 0.
  Proof. apply nth_zipw_add. Qed.

  (** changing one row of [r] *)
  Lemma rect_upd n (p : list (list F)) d (q : list F) : rect n p -> length q = n -> rect n (upd p d (fun row => zipw fadd row q)).
  Proof.
    intros H Hq. unfold rect in *. apply Forall_forall. intros v Hin. apply In_nth with (d := []) in Hin as (k & Hk & <-). rewrite upd_length in Hk.
    destruct (Nat.eq_dec k d) as [->|Hn].
    - rewrite nth_upd_eq by exact Hk. rewrite zipw_length, (rect_nth_row n p d H Hk). lia.
    - rewrite nth_upd_neq by auto. apply (rect_nth_row n p k H Hk).
  Qed.

  Lemma forged_polys ncomm n y (aL aR aO sL sR oR : list F) (fl : Flat F) (vecs : list (list F)) l r t :
    let op := op_degree_of ncomm in
    let mid := (op / 2)%nat in
    let op_vec := skipn 2 (op_splits op) in
    let z := zipw fmul (exp_iter y n) oR in
    let r' := upd r op (fun row => zipw fadd row z) in
    Nat.odd ncomm = true -> length oR = n ->
    length vecs = ncomm -> map (@length F) (wVC fl) = map (@length F) vecs ->
    Forall (fun v => (length v <= n)%nat) vecs ->
    build_polys op (op_splits op) n y (finv y) aL aR aO sL sR fl vecs = Some (l, r, t) ->
    exists t', vp_inner_product l r' = Some t' /\ length t' = (2 * (op + 1) + 1)%nat /\
      (forall x, exists lx rx, vp_eval l x = Some lx /\ vp_eval r' x = Some rx /\ length lx = n /\ length rx = n /\
         poly_eval t' x = ip lx rx /\
         (forall i, (i < n)%nat -> nth i lx 0 =
            fpow x mid * (nth i aL 0 + fpow (finv y) i * nth i (wR fl) 0) + fpow x op * nth i aO 0
            + fpow x (op + 1) * nth i sL 0 + slots_sum fst op_vec vecs x i) /\
         (forall i, (i < n)%nat -> nth i rx 0 =
            fpow x mid * (fpow y i * nth i aR 0 + nth i (wL fl) 0) + (nth i (wO fl) 0 - fpow y i)
            + fpow x (op + 1) * (fpow y i * nth i sR 0) + slots_sum snd op_vec (wVC fl) x i + fpow x op * (fpow y i * nth i oR 0))) /\
      nth op t' 0 = fsum n (fun i => (nth i aL 0 + fpow (finv y) i * nth i (wR fl) 0) * (fpow y i * nth i aR 0 + nth i (wL fl) 0)
                                   + nth i aO 0 * (nth i (wO fl) 0 - fpow y i))
                   + vsum (zipw ip (wVC fl) vecs) + fsum n (fun i => fpow y i * (nth i (nth (ncomm - 1) vecs []) 0 * nth i oR 0)).
  Proof.
    intros op mid op_vec z r' Hodd HoR Hlen Hw Hvn Hb.
    destruct (op_facts ncomm) as (H2 & He & Ho & _). fold op in H2, He, Ho. specialize (Ho Hodd).
    destruct (build_polys_spec ncomm n y (finv y) aL aR aO sL sR fl vecs Hlen Hw Hvn) as (l0 & r0 & t0 & B1 & B2 & B3 & B4).
    fold op mid op_vec in B1, B3, B4. rewrite Hb in B1. assert (l0 = l /\ r0 = r /\ t0 = t) as (-> & -> & ->) by (repeat split; congruence). clear B1.
    destruct (build_polys_rect ncomm n y (finv y) aL aR aO sL sR fl vecs l r t Hlen Hw Hvn Hb) as (Ll & Lr & Rl & Rr & Ht). fold op in Ll, Lr.
    assert (Lz : length z = n) by (unfold z; rewrite zipw_length, exp_iter_length; lia).
    pose proof (rect_upd n r op z Rr Lz) as Rr'. fold r' in Rr'.
    assert (Lr' : length r' = (op + 2)%nat) by (unfold r'; rewrite upd_length; exact Lr).
    assert (Hnl : l <> []) by (intros ->; cbn in Ll; lia). assert (Hnr : r <> []) by (intros ->; cbn in Lr; lia).
    assert (Hnr' : r' <> []) by (intros He'; rewrite He' in Lr'; cbn in Lr'; lia).
    pose proof (vp_inner_product_Some n l r' Hnl Hnr' Rl Rr') as Ht'. unfold vp_deg in Ht'. rewrite Ll, Lr' in Ht'.
    replace (op + 2 - 1 + (op + 2 - 1) + 1)%nat with (2 * (op + 1) + 1)%nat in Ht' by lia.
    eexists. split; [exact Ht'|]. split; [rewrite map_length, seq_length; reflexivity|]. split.
    - intros x. destruct (B3 x) as (lx & rx0 & D1 & D2 & D3 & D4 & D5 & D6 & D7). pose proof (vp_eval_Some n r' x Hnr' Rr') as Er.
      exists lx. eexists. split; [exact D1|]. split; [exact Er|]. split; [exact D3|]. split; [apply map_seq_len|]. split; [|split].
      + eapply (vp_inner_product_eval n l r' x); eassumption.
      + exact D6.
      + intros i Hi. rewrite (vp_eval_nth n r' x _ i Hnr' Rr' Er Hi). rewrite <- (D7 i Hi). rewrite (vp_eval_nth n r x _ i Hnr Rr D2 Hi).
        unfold r' at 1. rewrite upd_length.
        rewrite (fsum_ext _ (fun d => nth i (nth d r' []) 0 * fpow x d) (fun d => nth i (nth d r []) 0 * fpow x d + (if Nat.eqb d op then fpow x op * (fpow y i * nth i oR 0) else 0))).
        * rewrite fsum_add. f_equal. rewrite (fsum_single _ _ op) by (try lia; intros k Hk Hn; destruct (Nat.eqb_spec k op); congruence).
          rewrite Nat.eqb_refl. reflexivity.
        * intros d Hd. unfold r'. destruct (Nat.eqb_spec d op) as [->|Hn].
          -- rewrite nth_upd_eq by exact Hd. rewrite zipw_add_zero by (rewrite (rect_nth_row n r op Rr Hd); symmetry; exact Lz).
             unfold z. rewrite nth_zipw_mul, nth_exp_iter by exact Hi. ring.
          -- rewrite nth_upd_neq by auto. ring.
    - rewrite nth_map_seq by lia. rewrite <- B4. rewrite (vp_inner_product_Some n l r Hnl Hnr Rl Rr) in Ht. apply Some_inj in Ht. rewrite <- Ht.
      unfold vp_deg. rewrite Ll, Lr. rewrite nth_map_seq by lia.
      rewrite (fsum_ext (S op) (fun k => ip (nth k l []) (nth (op - k) r' [])) (fun k => ip (nth k l []) (nth (op - k) r []) + (if Nat.eqb k 0 then ip (nth 0 l []) z else 0))).
      + rewrite fsum_add. f_equal. rewrite (fsum_single _ _ 0%nat) by (try lia; intros k Hk Hn; destruct (Nat.eqb_spec k 0); congruence).
        rewrite Nat.eqb_refl. rewrite (ip_fsum _ _ n) by (rewrite (rect_nth_row n l 0 Rl); lia). apply fsum_ext. intros i Hi.
        unfold z. rewrite nth_zipw_mul, nth_exp_iter by exact Hi.
        replace (nth i (nth 0 l []) 0) with (nth i (nth (ncomm - 1) vecs []) 0); [ring|].
        destruct (B3 0) as (lx & rx0 & D1 & _ & _ & _ & _ & D6 & _). pose proof (vp_eval_nth n l 0 _ i Hnl Rl D1 Hi) as Hl0. rewrite (D6 i Hi) in Hl0.
        assert (Hp0 : forall k, (1 <= k)%nat -> fpow (0 : F) k = 0) by (intros [|k] Hk; [lia|]; cbn [fpow]; ring).
        assert (Hm : (1 <= mid)%nat) by (unfold mid; pose proof (Nat.div_mod op 2 ltac:(lia)); lia).
        fold mid in Hl0. rewrite !Hp0 in Hl0 by lia.
        rewrite (fsum_single _ _ 0%nat) in Hl0 by (try lia; intros k Hk Hn; rewrite Hp0 by lia; ring).
        cbn [fpow] in Hl0. transitivity (slots_sum fst op_vec vecs 0 i); [|transitivity (nth i (nth 0 l []) 0 * 1); [rewrite <- Hl0; ring|ring]].
        unfold slots_sum. rewrite (vsum_fsum _ ncomm) by (rewrite zipw_length; lia).
        assert (Lov : length op_vec = (op - 1)%nat) by (unfold op_vec; rewrite skipn_length, op_splits_length by exact H2; lia).
        rewrite (fsum_single _ _ (ncomm - 1)%nat).
        * rewrite (nth_zipw (fun o row => fpow (0:F) (fst o) * nth i row 0) op_vec vecs (ncomm - 1) (0, 0)%nat [] 0) by lia.
          change (fst (nth (ncomm - 1) op_vec (0, 0)%nat)) with (slot op (ncomm - 1)).
          pose proof (proj2 (slot_zero ncomm (ncomm - 1) ltac:(lia)) (conj Hodd eq_refl)) as Hs0. fold op in Hs0. rewrite Hs0. cbn [fpow]. ring.
        * lia.
        * intros j Hj Hne. rewrite (nth_zipw (fun o row => fpow (0:F) (fst o) * nth i row 0) op_vec vecs j (0, 0)%nat [] 0) by lia.
          change (fst (nth j op_vec (0, 0)%nat)) with (slot op j). rewrite Hp0; [ring|]. pose proof (slot_zero ncomm j Hj) as Hs. fold op in Hs. destruct (slot op j); [|lia].
          exfalso. apply Hne. apply Hs. reflexivity.
      + intros k Hk. unfold r'. destruct (Nat.eqb_spec k 0) as [->|Hn].
        * rewrite Nat.sub_0_r, nth_upd_eq by lia.
          rewrite !(ip_fsum (nth 0 l []) _ n) by (rewrite (rect_nth_row n l 0 Rl); lia). rewrite <- fsum_add. apply fsum_ext. intros i Hi.
          rewrite zipw_add_zero by (rewrite (rect_nth_row n r op Rr) by lia; symmetry; exact Lz). ring.
        * rewrite nth_upd_neq by lia. ring.
  Qed.
End Polys.

(** ** the verification equation *)
Section Accept.
  Context {F : Field} {V : VSpace F}.
  Add Field FFfa : (f_th F).
  Variable E : TrEnv V.
  Variable pc : PedersenGens V.
  Variable g : BPGens V.
  Implicit Types (s : PState F) (t : VState V).

  Lemma padded_wires s i : nth i (p_aL (padded s)) 0 = nth i (p_aL s) 0 /\ nth i (p_aR (padded s)) 0 = nth i (p_aR s) 0 /\ nth i (p_aO (padded s)) 0 = nth i (p_aO s) 0.
  Proof.
    cbn [padded p_set_wires p_aL p_aR p_aO]. 
    assert (H : forall (l : list F) k, nth i (l ++ zeros k) 0 = nth i l 0).
    { intros l k. rewrite nth_app0. destruct (Nat.ltb_spec i (length l)); [reflexivity|]. rewrite (nth_overflow l) by lia. apply nth_repeat. }
    auto.
  Qed.

  Theorem forge_accepts dbg rr rnd s t oR pf :
    agree pc g s t -> v_def t = [] -> length (p_aR s) = length (p_aL s) -> length (p_aO s) = length (p_aL s) ->
    gens_wf g -> (gens_capacity g < 2 ^ 32)%nat ->
    Nat.odd (length (p_vec s)) = true -> length oR = p_size s ->
    Forall (fun lc => lc_val (p_asg s) lc = 0) (p_cs s) ->
    (forall i, (i < p_size s)%nat -> nth i (p_aL s) 0 * nth i (p_aR s) 0 - nth i (p_aO s) 0
        + nth i (nth (length (p_vec s) - 1) (map snd (p_vec s)) []) 0 * nth i oR 0 = 0) ->
    Forge.forge E rnd pc g s oR = Some pf ->
    Forall (fun P => P <> v0) (validated_points (op_degree_of (length (p_vec s))) pf) ->
    r1cs_verify E dbg rr pf pc g t = Some (Ok tt).
  Proof.
    intros Ha Hdef HaR HaO (Gr & Hr & HG & HH & LG & LH) Hcap Hodd HoR Hlin Hgate Hf Hnz.
    unfold Forge.forge in Hf. rewrite p_pad_eq in Hf. set (s0 := padded s) in *.
    change (p_vec s0) with (p_vec s) in Hf. rewrite (padded_size s : p_size s0 = p_size s) in Hf.
    set (n := p_size s) in *. set (N := next_power_of_two n) in *. set (op := op_degree_of (length (p_vec s))) in *.
    unfold share_G, share_H in Hf. rewrite HG, HH in Hf. cbn [option_map opt_bind] in Hf.
    set (sL := map (r_sL1 rnd) (seq 0 n)) in *. set (sR := map (r_sR1 rnd) (seq 0 n)) in *.
    set (ai := commit_I pc (r_i1 rnd) _ _ _ _) in Hf. set (ao := commit_I pc (r_o1 rnd) _ _ _ _) in Hf. set (ss := commit_I pc (r_s1 rnd) _ _ _ _) in Hf.
    change (p_tr s0) with (p_tr s) in Hf. change (p_v s0) with (p_v s) in Hf. change (p_vb s0) with (p_vb s) in Hf.
    set (tr1 := append_point E (append_point E (append_point E (append_u64 (p_tr s) "m" (N.of_nat (length (p_v s)))) "A_I1" ai) "A_O1" ao) "S1" ss) in Hf.
    destruct (challenge_scalar E _ "y") as [[y try_]|] eqn:Ey in Hf; [|discriminate]. cbn [opt_bind] in Hf.
    destruct (challenge_scalar E try_ "z") as [[z trz]|] eqn:Ez; [|discriminate]. cbn [opt_bind] in Hf.
    destruct (p_flatten s0 z) as [fl|] eqn:Efl; [|discriminate]. cbn [opt_bind] in Hf.
    destruct (finv_opt y) as [yi|] eqn:Eyi; [|discriminate]. cbn [opt_bind] in Hf. apply finv_opt_Some in Eyi as [Hy0 ->].
    destruct (build_polys _ _ _ _ _ _ _ _ _ _ _ _) as [[[l r] tp0]|] eqn:Epoly; [|discriminate]. cbn [opt_bind] in Hf.
    set (r' := upd r op _) in *.
    destruct (vp_inner_product l r') as [tp|] eqn:Etp; [|discriminate]. cbn [opt_bind] in Hf.
    set (M := (2 * (op + 1) + 1)%nat) in *.
    set (tb := map (fun d => if Nat.eqb d op then 0 else r_t rnd d) (seq 0 M)) in *.
    set (T := map _ (seq 0 M)) in Hf.
    destruct (append_Ts E _ _ _ _) as [trT|] eqn:ETs; [|discriminate]. cbn [opt_bind] in Hf.
    destruct (challenge_scalar E trT "u") as [[u tru]|] eqn:Eu; [|discriminate]. cbn [opt_bind] in Hf.
    destruct (challenge_scalar E tru "x") as [[x trx]|] eqn:Ex; [|discriminate]. cbn [opt_bind] in Hf.
    destruct (vp_eval l x) as [lx|] eqn:Elx; [|discriminate]. cbn [opt_bind] in Hf.
    destruct (vp_eval r' x) as [rx|] eqn:Erx; [|discriminate]. cbn [opt_bind] in Hf.
    set (tx := poly_eval tp x) in *. set (txb := poly_eval _ x) in Hf. set (eb := eval_terms _ 1 x) in Hf.
    destruct (challenge_scalar E _ "w") as [[w trw]|] eqn:Ew in Hf; [|discriminate]. cbn [opt_bind] in Hf.
    set (ufs := repeat 1 n ++ repeat u (N - n)) in Hf.
    destruct (ipp_create E _ _ _ _ _ _ _ _) as [[ipp tri]|] eqn:Eipp; [|discriminate]. cbn [opt_bind] in Hf.
    apply Some_inj in Hf. subst pf.
    (* sizes *)
    assert (Hvl : Forall (fun bv => (length (snd bv) <= n)%nat) (p_vec s)) by apply vmax_all.
    assert (HnN : (n <= N)%nat) by apply next_power_of_two_ge.
    assert (Hop2 : (2 <= op)%nat) by (unfold op; rewrite op_degree_even; lia).
    assert (L0 : length (p_aL s0) = n) by apply padded_length.
    assert (LR0 : length (p_aR s0) = n) by (rewrite <- L0; cbn [s0 padded p_set_wires p_aL p_aR]; rewrite !app_length; lia).
    assert (LO0 : length (p_aO s0) = n) by (rewrite <- L0; cbn [s0 padded p_set_wires p_aL p_aO]; rewrite !app_length; lia).
    (* the verifier's state *)
    pose proof (v_size_agree _ _ _ _ Ha) as Hvsz. fold n in Hvsz.
    set (t2 := v_set_tr (v_set_num (v_set_tr (v_pad (v_size t) t) tr1) (v_num (v_set_tr (v_pad (v_size t) t) tr1)) None) (r1cs_1phase_domain_sep tr1)).
    set (s2 := p_set_tr (p_set_pend (p_set_tr s0 tr1) None) (r1cs_1phase_domain_sep tr1)).
    destruct (v_pad_facts t) as (P1 & P2 & P3 & P4 & P5 & P6 & P7). cbv zeta in *.
    assert (Hr2 : v_create_randomized E (v_set_tr (v_pad (v_size t) t) tr1) = Some (Ok t2)).
    { unfold v_create_randomized. change (v_def (v_set_num (v_set_tr ?a ?b) ?c ?d)) with (v_def a). rewrite P5, Hdef. reflexivity. }
    assert (Ha2 : agree pc g s2 t2).
    { pose proof (pad_agree pc g _ _ Ha) as [A1 A2 A3 A4 A5 A6 A7 A8 A9]. constructor; cbn; auto. }
    change (p_flatten s0 z) with (p_flatten s2 z) in Efl.
    destruct (p_v_flatten _ _ _ _ _ _ Ha2 Efl) as (fl' & Hfl' & Hsame).
    destruct (v_flatten_shape _ _ _ Hfl') as (WL & WR & WO & WV & WVC).
    assert (Hvn : v_num t2 = n) by (rewrite <- (ag_num _ _ _ _ Ha2); exact L0). rewrite Hvn in WL, WR, WO.
    destruct (v_size_after E t _ t2 Hr2) as (Hsn & _ & Hvec2 & HV2).
    assert (Hvs2 : v_size t2 = n) by congruence.
    assert (Hnct : length (v_vec t) = length (p_vec s)) by (rewrite (ag_vec _ _ _ _ Ha), map_length; reflexivity).
    assert (Hnc : length (v_vec t2) = length (p_vec s)) by congruence.
    destruct Hsame as (W1 & W2 & W3 & W4 & W5).
    assert (HwVC : map (@length F) (wVC fl) = map (@length F) (map snd (p_vec s))).
    { rewrite W5, WVC, (ag_vec _ _ _ _ Ha2), !map_map. reflexivity. }
    assert (Hvl' : Forall (fun v => (length v <= n)%nat) (map snd (p_vec s))) by (rewrite Forall_map; exact Hvl).
    destruct (forged_polys (length (p_vec s)) n y (p_aL s0) (p_aR s0) (p_aO s0) sL sR oR fl (map snd (p_vec s)) l r tp0 Hodd HoR
       ltac:(apply map_length) HwVC Hvl' Epoly) as (tp' & B1 & B2 & B3 & B4).
    fold op in B1, B2, B3, B4. fold r' M in B1, B2, B3. rewrite Etp in B1. apply Some_inj in B1. subst tp'.
    destruct (B3 x) as (lx0 & rx0 & D1 & D2 & D3 & D4 & D5 & D6 & D7). clear B3.
    assert (lx0 = lx) by congruence. assert (rx0 = rx) by congruence. subst lx0 rx0. clear D1 D2.
    destruct (ipp_create_spec _ _ _ _ _ _ _ _ _ _ _ Eipp) as (k & us & K1 & K2 & K3 & K4 & K5 & K6 & K7 & K8 & K9 & K10 & K11 & K12).
    assert (Lufs : length ufs = N) by (unfold ufs; rewrite app_length, !repeat_length; lia).
    assert (HNk : N = (2 ^ k)%nat) by congruence.
    assert (HNG : (N <= length Gr)%nat) by (rewrite firstn_length in K5; lia).
    assert (HNH : (N <= length Hr)%nat) by lia.
    unfold validated_points in Hnz. cbn [A_I1 A_O1 S1 pT pipp] in Hnz.
    apply Forall_app in Hnz as [HnzA Hnz]. apply Forall_app in Hnz as [HnzT Hnz]. apply Forall_app in Hnz as [HnzL HnzR].
    apply Forall_cons_iff in HnzA as [Z1 HnzA]. apply Forall_cons_iff in HnzA as [Z2 HnzA]. apply Forall_cons_iff in HnzA as [Z3 _].
    assert (HTlen : length T = M) by (unfold T; rewrite map_length, seq_length; reflexivity). rewrite HTlen in HnzT.
    specialize (K11 HnzL HnzR). rewrite <- K5, Lufs in K11.
    assert (H32 : (length (ipp_L ipp) < 32)%nat) by (rewrite K8; apply pow2_lt_32; lia).
    set (pf := mkProof ai ao ss v0 v0 v0 T tx txb eb ipp).
    assert (Hvf : v_facts E dbg pf t t2 y z u x w fl' us).
    { constructor; cbn [pf A_I1 A_O1 S1 A_I2 A_O2 S2 pT pt_x pt_x_blinding pe_blinding pipp]; rewrite ?Hnct; fold op M.
      - intros _. split; [exact HTlen|]. split; [|right; auto]. unfold T. rewrite nth_error_map, (nth_error_nth' _ 0%nat) by (rewrite seq_length; unfold M; lia).
        rewrite seq_nth by (unfold M; lia). cbn [option_map Nat.add]. rewrite Nat.eqb_refl. reflexivity.
      - auto.
      - rewrite <- (ag_tr _ _ _ _ Ha). rewrite (ag_V _ _ _ _ Ha), zipw_length, <- (ag_vb _ _ _ _ Ha), Nat.min_id. fold tr1. exact Hr2.
      - exists try_, trz, trT, tru, trx, trw, tri. split; [exact Ey|]. split; [exact Ez|]. split.
        { apply validate_Ts_append; [exact ETs|]. intros d Hd Hne. rewrite Forall_map, Forall_forall in HnzT.
          apply HnzT. apply filter_In. split; [exact Hd|]. apply negb_true_iff, Nat.eqb_neq, Hne. }
        split; [exact Eu|]. split; [exact Ex|]. split; [exact Ew|]. rewrite Hvs2. fold N.
        apply verification_scalars_spec. exists us, tri. split; [exact K11|]. split; [exact H32|]. split; [congruence|]. split; [congruence|reflexivity].
      - exact Hfl'.
      - exact Hy0. }
    unfold r1cs_verify. rewrite (v_scalars_of_facts E dbg rr pf t t2 y z u x w fl' us Hvf). cbn [res_bind].
    rewrite Hvsz, Hvs2, Hnct. fold op.
    assert (Lsv : length (svec us) = N) by (rewrite svec_length; congruence).
    set (yw := zipw fmul (wR fl') (exp_iter (finv y) N) ++ repeat 0 (N - n)).
    assert (Lyw : length yw = N) by (unfold yw; rewrite app_length, zipw_length, repeat_length, exp_iter_length, WR; lia).
    assert (Eufs : repeat 1 n ++ repeat u (n - n + (N - n)) = ufs) by (unfold ufs; rewrite Nat.sub_diag; reflexivity).
    rewrite (mega_check_value pc g _ N (firstn N Gr) (firstn N Hr)).
    2:{ unfold run_tuple. cbn [vt_fixed length]. fold N. rewrite Eufs. fold yw. rewrite app_length, zipw_length, combine_length, map_length, seq_length. lia. }
    2:{ lia. } 2:{ unfold share_G. rewrite HG. reflexivity. } 2:{ unfold share_H. rewrite HH. reflexivity. }
    match goal with |- Some (if veqb ?e v0 then _ else _) = _ => assert (Hmsm : e = v0) end.
    2:{ rewrite Hmsm. rewrite (proj2 (veqb_true v0 v0) eq_refl). reflexivity. }
    unfold run_tuple. fold N. cbn [vt_points vt_scalars vt_fixed pf A_I1 A_O1 S1 A_I2 A_O2 S2 pT pt_x pt_x_blinding pe_blinding pipp].
    rewrite Eufs. fold yw M.
    set (ov := skipn 2 (op_splits op)) in *. set (mid := (op / 2)%nat) in *.
    set (ds := filter (fun d => negb (Nat.eqb d op)) (seq 0 M)).
    assert (Hov : (length (p_vec s) <= length ov)%nat).
    { unfold ov. rewrite skipn_length, op_splits_length by exact Hop2. pose proof (op_degree_ge (length (p_vec s))). fold op in H. lia. }
    assert (LxL : length (map (fun o : nat * nat => fpow x (fst o)) (firstn (length (v_vec t2)) ov)) = length (v_vec t2)).
    { rewrite map_length, firstn_length. lia. }
    assert (LV : length (v_V t2) = length (wV fl')) by (symmetry; exact WV).
    set (gsc := zipw _ (combine yw ufs) (svec us)). set (hsc := map _ (seq 0 N)).
    assert (Lg : length gsc = N) by (unfold gsc; rewrite zipw_length, combine_length; lia).
    rewrite W5 in HwVC, D7, B4. rewrite W1 in D7, B4. rewrite W2 in D6, B4. rewrite W3 in D7, B4.
    set (B := pcB pc) in *. set (Bb := pcB_blinding pc) in *.
    assert (LsL : length sL = n) by (unfold sL; rewrite map_length, seq_length; lia).
    assert (LsR : length sR = n) by (unfold sR; rewrite map_length, seq_length; lia).
    assert (HnG : (n <= length Gr)%nat) by lia. assert (HnH : (n <= length Hr)%nat) by lia.
    assert (Hgf : forall (a : nat -> F) (Q : list V), gsum n (fun i => vsmul (gf n u i * a i) (nth i Q v0)) = gsum n (fun i => vsmul (a i) (nth i Q v0))).
    { intros a Q. apply gsum_ext. intros i Hi. unfold gf. destruct (Nat.ltb_spec i n); [|lia]. vring. }
    set (D := gsum n (fun i => vsmul (nth i oR 0) (nth i Hr v0))).
    set (c := finv x). assert (Hc : fpow x (op + 1) * c = fpow x op).
    { replace (op + 1)%nat with (S op) by lia. cbn [fpow]. unfold c. destruct (f_eq_dec x 0) as [->|Hx].
      - destruct op as [|o]; [lia|]. cbn [fpow]. ring.
      - field. exact Hx. }
    assert (HAI : vadd ai (vsmul u v0) = vadd (vadd (vsmul (r_i1 rnd) Bb)
       (gsum n (fun i => vsmul (gf n u i * nth i (p_aL s0) 0) (nth i Gr v0)))) (gsum n (fun i => vsmul (gf n u i * nth i (p_aR s0) 0) (nth i Hr v0)))).
    { rewrite !Hgf. unfold ai. rewrite firstn_firstn, (firstn_firstn Hr), (Nat.min_l n N HnN). rewrite (commit_I_gsum pc Gr Hr _ _ _ n) by assumption. fold Bb. vring. }
    assert (HAO : vadd (vsub ao D) (vsmul u v0) = vadd (vsmul (r_o1 rnd) Bb) (gsum n (fun i => vsmul (gf n u i * nth i (p_aO s0) 0) (nth i Gr v0)))).
    { rewrite !Hgf. unfold ao. rewrite firstn_firstn, (firstn_firstn Hr), (Nat.min_l n N HnN). rewrite (commit_I_gsum pc Gr Hr _ _ _ n) by assumption. fold Bb. unfold D. vring. }
    assert (HS : vadd (vadd ss (vsmul c D)) (vsmul u v0) = vadd (vadd (vsmul (r_s1 rnd) Bb)
       (gsum n (fun i => vsmul (gf n u i * nth i sL 0) (nth i Gr v0)))) (gsum n (fun i => vsmul (gf n u i * (nth i sR 0 + c * nth i oR 0)) (nth i Hr v0)))).
    { rewrite !Hgf. unfold ss. rewrite firstn_firstn, (firstn_firstn Hr), (Nat.min_l n N HnN). rewrite (commit_I_gsum pc Gr Hr _ _ _ n) by assumption. fold Bb.
      rewrite (gsum_ext n (fun i => vsmul (nth i sR 0 + c * nth i oR 0) (nth i Hr v0)) (fun i => vadd (vsmul (nth i sR 0) (nth i Hr v0)) (vsmul c (vsmul (nth i oR 0) (nth i Hr v0))))) by (intros; vring).
      rewrite gsum_add. rewrite gsum_smul. fold D. vring. }
    pose proof (veccoms_sum pc Gr ov (p_vec s) x u n n (le_n n) Hvl) as HVC.
    assert (HGr0 : nth 0 (G_vec g) [] = Gr) by (apply nth_error_nth with (1 := HG)).
    assert (HVCp : map (fun bv => vadd (vsmul (fst bv) Bb) (msm (snd bv) Gr)) (p_vec s) = map fst (v_vec t2)).
    { rewrite (ag_vec _ _ _ _ Ha2). change (p_vec s2) with (p_vec s). rewrite map_map. apply map_ext. intros bv. cbn [fst]. unfold vec_commitment. rewrite HGr0. reflexivity. }
    fold Bb in HVC. rewrite HVCp in HVC. rewrite <- (map_firstn_zipw (fun o => fpow x (fst o)) ov (p_vec s) _ eq_refl), <- Hnc in HVC.
    assert (HopM : (op < M)%nat) by (unfold M; lia).
    pose proof (T_sum pc op M rr x T (fun d => nth d tp 0) (fun d => nth d tb 0) HopM eq_refl) as HT. cbv zeta in HT. fold ds in HT. fold B Bb in HT.
    assert (Htxall : tx = except op M (fun d => fpow x d * nth d tp 0) + fpow x op * nth op tp 0).
    { unfold tx. rewrite poly_eval_peval, (peval_fsum _ _ M) by lia. rewrite <- (except_spec op M (fun d => fpow x d * nth d tp 0) HopM).
      apply fsum_ext. intros d _. ring. }
    assert (Ltb : length tb = M) by (unfold tb; rewrite map_length, seq_length; reflexivity).
    assert (Htxb : txb = except op M (fun d => fpow x d * nth d tb 0) + fpow x op * ip (wV fl') (p_vb s)).
    { unfold txb. rewrite W4, poly_eval_peval, (peval_fsum _ _ M) by (rewrite upd_length; lia).
      rewrite (except_spec op M _ HopM), nth_upd_eq by lia. unfold except. f_equal; [|ring]. apply fsum_ext. intros d _.
      destruct (Nat.eqb_spec d op) as [|Hd]; [reflexivity|]. rewrite nth_upd_neq by congruence. ring. }
    assert (Hcons : ip (wL fl') (p_aL s0) + ip (wR fl') (p_aR s0) + ip (wO fl') (p_aO s0) + vsum (zipw ip (wVC fl') (map snd (p_vec s)))
        - ip (wV fl') (p_v s) - wc fl' = 0).
    { transitivity (batched_constraints (p_asg s0) z (v_cs t2)).
      - rewrite <- (v_flatten_value _ _ _ (p_asg s0) Hfl' eq_refl). unfold flat_value.
        assert (Hw : forall (lst : list F) mk, length lst = n -> (forall i, p_asg s0 (mk i) = match nth_error lst i with Some x => x | None => 0 end) -> wires (p_asg s0) mk n = lst).
        { intros lst mk Hl Hmk. apply (list_ext_nth _ _ 0); [rewrite wires_length; auto|]. intros i Hi. rewrite wires_length in Hi.
          rewrite nth_wires by exact Hi. rewrite Hmk. destruct (nth_error lst i) eqn:En; [symmetry; apply nth_error_nth; exact En|].
          apply nth_error_None in En. lia. }
        rewrite WL, WR, WO, WV. rewrite (Hw (p_aL s0) MulL), (Hw (p_aR s0) MulR), (Hw (p_aO s0) MulO) by (reflexivity || assumption).
        rewrite (ag_V _ _ _ _ Ha2), zipw_length, <- (ag_vb _ _ _ _ Ha2), Nat.min_id. change (p_v s2) with (p_v s0).
        rewrite wires_committed. rewrite vc_value_spec; [reflexivity|]. rewrite HwVC, map_map. reflexivity.
      - rewrite <- (ag_cs _ _ _ _ Ha2). change (p_cs s2) with (p_cs s). unfold batched_constraints. apply fsum_zero. intros q Hq.
        rewrite Forall_forall in Hlin. rewrite (lc_val_ext (p_asg s0) (p_asg s) _ (padded_asg s)).
        rewrite (Hlin (nth q (p_cs s) [])) by (apply nth_In; exact Hq). ring. }
    pose proof (t2_value_spec n y (p_aL s0) (p_aR s0) (p_aO s0) fl' (map snd (p_vec s)) Hy0 L0 LR0 LO0 WL WR WO) as Ht2v.
    rewrite Ht2v in B4. unfold t2_value in B4.
    assert (Hg0 : ip (p_aL s0) (zipw fmul (p_aR s0) (exp_iter y n)) - ip (p_aO s0) (exp_iter y n)
       + fsum n (fun i => fpow y i * (nth i (nth (length (p_vec s) - 1) (map snd (p_vec s)) []) 0 * nth i oR 0)) = 0).
    { rewrite !(ip_fsum _ _ n) by (rewrite ?zipw_length, ?exp_iter_length; lia).
      rewrite <- fsum_sub, <- fsum_add. apply fsum_zero. intros i Hi. rewrite nth_zipw_mul, nth_exp_iter by exact Hi.
      pose proof (padded_wires s i) as (Q1 & Q2 & Q3). fold s0 in Q1, Q2, Q3. rewrite Q1, Q2, Q3. specialize (Hgate i Hi).
      transitivity (fpow y i * (nth i (p_aL s) 0 * nth i (p_aR s) 0 - nth i (p_aO s) 0
        + nth i (nth (length (p_vec s) - 1) (map snd (p_vec s)) []) 0 * nth i oR 0)); [ring|]. rewrite Hgate. ring. }
    pose proof (delta_fsum (wR fl') (wL fl') (finv y) n N WR WL HnN) as Hdelta. fold yw in Hdelta.
    rewrite split_msm.
    2:{ rewrite LxL, map_length. reflexivity. } 2:{ reflexivity. } 2:{ rewrite map_length. symmetry. exact LV. }
    2:{ rewrite !map_length. reflexivity. } 2:{ rewrite map_length. congruence. } 2:{ rewrite map_length. congruence. }
    2:{ rewrite firstn_length. lia. }
    fold B Bb.
    assert (HVs : msm (map (fun c => c * (rr * fpow x op)) (wV fl')) (v_V t2)
        = vsmul (rr * fpow x op) (vadd (vsmul (ip (wV fl') (p_v s)) B) (vsmul (ip (wV fl') (p_vb s)) Bb))).
    { rewrite (ag_V _ _ _ _ Ha2). change (p_v s2) with (p_v s). change (p_vb s2) with (p_vb s). unfold B, Bb.
      rewrite <- msm_pedersen by exact (ag_vb _ _ _ _ Ha). rewrite <- msm_scale. f_equal. unfold vscale. apply map_ext. intros c'. ring. }
    pose proof (mega_algebra pc Gr Hr N n n mid op u x y w rr (ipp_a ipp) (ipp_b ipp) tx txb eb
       (wc fl') (ip (firstn n yw) (wL fl')) (lx ++ repeat 0 (N - n)) (rx ++ map (fun i => - nth i (exp_iter y N) 0) (seq n (N - n))) yw ufs
       (fun i => nth i (p_aL s0) 0) (fun i => nth i (p_aR s0) 0) (fun i => nth i (p_aO s0) 0) (fun i => nth i sL 0) (fun i => nth i sR 0 + c * nth i oR 0)
       (fun i => nth i (wL fl') 0) (fun i => nth i (wO fl') 0) (fun i => slots_sum fst ov (map snd (p_vec s)) x i) (fun i => slots_sum snd ov (wVC fl') x i)
       (msm (map (fun o : nat * nat => fpow x (fst o)) (firstn (length (v_vec t2)) ov)) (map fst (v_vec t2)))
       (msm (map (fun c => c * (rr * fpow x op)) (wV fl')) (v_V t2))
       (msm (map (fun d => rr * fpow x d) ds) (map (fun d => nth d T v0) ds))
       (r_i1 rnd) (r_o1 rnd) (r_s1 rnd)
       (vsum (zipw (fun (o : nat * nat) (bv : F * list F) => fpow x (fst o) * fst bv) ov (p_vec s)))
       (ip (wV fl') (p_v s)) (ip (wV fl') (p_vb s))
       (except op M (fun d => fpow x d * nth d tp 0)) (except op M (fun d => fpow x d * nth d tb 0)) ai (vsub ao D) (vadd ss (vsmul c D)) v0 v0 v0
       (vadd (msm (map (fun c => c * c) us) (ipp_L ipp)) (msm (map (fun c => inv_or_zero c * inv_or_zero c) us) (ipp_R ipp))) (svec us)
       HnN Lufs ltac:(lia) ltac:(lia) Hy0 ltac:(rewrite app_length, repeat_length; lia) ltac:(rewrite app_length, map_length, seq_length; lia) Lyw Lsv) as MA.
    specialize (MA ltac:(intros i Hlt; unfold ufs; apply nth_us; lia) HAI HAO HS HVC).
    assert (Hyw : forall i, (i < n)%nat -> nth i yw 0 = fpow (finv y) i * nth i (wR fl') 0).
    { intros i Hlt. unfold yw. rewrite nth_app0, zipw_length, exp_iter_length, WR. destruct (Nat.ltb_spec i (Nat.min n N)); [|lia].
      rewrite nth_zipw_mul, nth_exp_iter by lia. ring. }
    assert (Hyw0 : forall i, (n <= i < N)%nat -> nth i yw 0 = 0).
    { intros i Hlt. unfold yw. rewrite nth_app0, zipw_length, exp_iter_length, WR. destruct (Nat.ltb_spec i (Nat.min n N)); [lia|].
      apply nth_repeat. }
    specialize (MA ltac:(unfold eb; apply e_blinding_spec)).
    specialize (MA ltac:(intros i Hlt; rewrite app_nth1 by lia; rewrite (D6 i Hlt), (Hyw i Hlt); reflexivity)).
    specialize (MA ltac:(intros i Hlt; split; [rewrite app_nth2 by lia; apply nth_repeat|apply Hyw0; exact Hlt])).
    specialize (MA ltac:(intros i Hlt; rewrite app_nth1 by lia; rewrite (D7 i Hlt); rewrite <- Hc; fold mid ov; ring)).
    assert (Hslots0 : forall i, (n <= i)%nat -> slots_sum snd ov (wVC fl') x i = 0).
    { intros i Hge. unfold slots_sum. rewrite (vsum_fsum _ (length (zipw (fun (o : nat * nat) (row : list F) => fpow x (snd o) * nth i row 0) ov (wVC fl')))) by lia.
      apply fsum_zero. intros j Hj. rewrite zipw_length in Hj.
      rewrite (nth_zipw (fun (o : nat * nat) (row : list F) => fpow x (snd o) * nth i row 0) ov (wVC fl') j (0, 0)%nat [] 0) by lia. rewrite (nth_overflow (nth j (wVC fl') [])); [ring|].
      assert (Hrow : In (nth j (wVC fl') []) (wVC fl')) by (apply nth_In; lia). apply (in_map (@length F)) in Hrow. rewrite HwVC, map_map in Hrow.
      apply in_map_iff in Hrow as (bv & Hbv & Hin). rewrite Forall_forall in Hvl. specialize (Hvl bv Hin). lia. }
    specialize (MA ltac:(intros i Hlt; split; [|split; [|split]];
       [rewrite app_nth2 by lia; rewrite D4; rewrite (nth_map_in (fun i0 => - nth i0 (exp_iter y N) 0) _ _ 0%nat) by (rewrite seq_length; lia);
        rewrite seq_nth by lia; replace (n + (i - n))%nat with i by lia; rewrite nth_exp_iter by lia; reflexivity
       |apply nth_overflow; lia|apply nth_overflow; lia|apply Hslots0; lia])).
    specialize (MA ltac:(unfold tx; rewrite D5, ip_app by congruence; change (repeat 0 (N - n)) with (zeros (F:=F) (N - n)); rewrite ip_zeros_l; ring)).
    specialize (MA HVs HT Htxb).
    assert (Hexp : ipp_statement (vsmul w B) ufs (zipw fmul (exp_iter (finv y) N) ufs)
       (firstn N Gr) (firstn N Hr) (lx ++ repeat 0 (N - n))
       (rx ++ map (fun i : nat => - nth i (exp_iter y N) 0) (seq n (N - n))) = 
       vsub (vadd (vadd (vsmul (ipp_a ipp * ipp_b ipp) (vsmul w B)) (vsmul (ipp_a ipp) (msm (svec us) (scaled ufs (firstn N Gr)))))
         (vsmul (ipp_b ipp) (msm (rev (svec us)) (scaled (zipw fmul (exp_iter (finv y) N) ufs) (firstn N Hr)))))
         (vadd (msm (map (fun c => c * c) us) (ipp_L ipp)) (msm (map (fun c => inv_or_zero c * inv_or_zero c) us) (ipp_R ipp)))).
    { rewrite K12. unfold expected. vring. }
    specialize (MA Hexp). etransitivity; [|etransitivity; [exact MA|]].
    - f_equal. f_equal. f_equal. f_equal. f_equal. f_equal. f_equal. cbn [msm]. rewrite <- Hc. vring.
    - transitivity (vsmul 0 B); [|vring]. f_equal. rewrite Htxall, Hdelta, B4. 
      transitivity (- (rr * fpow x op * (ip (wL fl') (p_aL s0) + ip (wR fl') (p_aR s0) + ip (wO fl') (p_aO s0) +
        vsum (zipw ip (wVC fl') (map snd (p_vec s))) - ip (wV fl') (p_v s) - wc fl')
        + rr * fpow x op * (ip (p_aL s0) (zipw fmul (p_aR s0) (exp_iter y n)) - ip (p_aO s0) (exp_iter y n)
           + fsum n (fun i => fpow y i * (nth i (nth (length (p_vec s) - 1) (map snd (p_vec s)) []) 0 * nth i oR 0))))); [ring|].
      rewrite Hcons, Hg0. ring.
  Qed.
End Accept.
