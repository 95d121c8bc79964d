(** * Soundness of a whole path once the missing constraint is added (C83)

    [verify_from true]: the verifier with the constraint missing from [re_randomize]
    (C36) added at every level; [verify_from false] is the code.  [scalar_of w bits]:
    the number with the digits [bits] under the assignment [w].  [all_opened]: the
    assignment and the blindings open every vector commitment.  [rerandomizes prm c R e
    r]: R + Delta = e (c + Delta) + r B~ and e is 1 or -1.  [broken]: the openings, the
    digits and the values of a node of the tree give a non-trivial relation between B~,
    Delta and the generators of one of the curves.  See TiedProofs.v.

    In a group of prime order, every R is leaf + r B~ for some r, and relations between
    generators exist: the content of the statements is that the scalars are those
    computed from the assignments and the openings. *)
From Verif Require Import TiedComplete CSProofs UtilProofs Lockstep CSMore CSLogic GadgetProofs TreeProofs RerandMore RerandArith SelSim SelPath Binding SingleLevel PropsGadgets PropsSingle PropsRerand PropsSelRerand ForgePour Toy ToyCurve.
Local Open Scope F_scope.

Lemma all_some_imap_nth {A B} (f : nat -> A -> option B) : forall l i r k a, all_some (imap f i l) = Some r -> nth_error l k = Some a -> exists b, f (i + k)%nat a = Some b /\ nth_error r k = Some b.
Proof.
  induction l as [|a l IH]; intros i r k a' H Hk; [destruct k; discriminate|]. cbn [imap all_some] in H. destruct (f i a) as [b|] eqn:Ef; [|discriminate]. cbn [opt_bind] in H.
  destruct (all_some (imap f (S i) l)) as [r'|] eqn:Er; [|discriminate]. cbn [opt_bind] in H. apply Some_inj in H. subst r. destruct k as [|k].
  - cbn [nth_error] in *. apply Some_inj in Hk. subst a'. exists b. rewrite Nat.add_0_r. auto.
  - cbn [nth_error] in *. destruct (IH _ _ _ _ Er Hk) as (b' & Hb & Hr). exists b'. replace (i + S k)%nat with (S i + k)%nat by lia. auto.
Qed.
Lemma Forall2_at {A B} (Q : A -> B -> Prop) : forall l l' k a, Forall2 Q l l' -> nth_error l k = Some a -> exists b, In b l' /\ Q a b.
Proof.
  intros l l' k a H. revert k. induction H as [|x y l l' Hq _ IH]; intros k Hk; [destruct k; discriminate|]. destruct k as [|k]; cbn [nth_error] in Hk.
  - apply Some_inj in Hk. subst. exists y. split; [left; reflexivity|exact Hq].
  - destruct (IH _ Hk) as (b & Hb & Hq'). exists b. split; [right; exact Hb|exact Hq'].
Qed.
Lemma in_combine_nth {A B} : forall (l : list A) (l' : list B) a b, In (a, b) (combine l l') -> exists k, nth_error l k = Some a /\ nth_error l' k = Some b.
Proof.
  induction l as [|x l IH]; intros [|y l'] a b H; try contradiction. cbn [combine] in H. destruct H as [H|H].
  - apply pair_inj in H as [-> ->]. exists 0%nat. auto.
  - destruct (IH _ _ _ H) as (k & Hk). exists (S k). exact Hk.
Qed.

Section Main.
  Context {F0 F1 : PField} {P0 : SWCurve F1 F0} {P1 : SWCurve F0 F1}.
  Variables (E0 : TrEnv P0) (E1 : TrEnv P1) (enc0 : P0 -> bytes) (enc1 : P1 -> bytes).
  Variables (L : nat) (prm : SRParams P0 P1) (t : CurveTree P0 P1).

  (** The links between the public points. *)
  Lemma even_links (p : Path P0 P1) c (sts : list (Step P1 P0)) (sts1 : list (Step P0 P1)) : length (pa_odd p) = S (length (pa_even p)) ->
    even_steps L prm t (mkPath (pa_selected p) (pa_odd p) (c :: pa_even p)) false = Some sts -> odd_steps L prm t (mkPath (pa_selected p) (pa_odd p) (c :: pa_even p)) false = Some sts1 ->
    exists a po xs, pa_odd p = a :: po /\ length po = length (pa_even p) /\ root_xs_even prm t 0 = Some xs /\ nth_error sts 0 = Some (inl xs, a) /\
      (forall R ch, In (R, ch) (combine (pa_even p) po) -> exists k, nth_error sts k = Some (inr (L, R), ch)) /\
      (forall R ch, In (R, ch) (combine (a :: po) (pa_even p ++ [pa_selected p])) -> exists k, nth_error sts1 k = Some (inr (L, R), ch)).
  Proof.
    intros Hl He Ho. destruct p as [sel [|a po] pe]; [discriminate Hl|]. cbn [pa_odd pa_even pa_selected length] in *. unfold even_steps, odd_steps in *. cbn [pa_odd pa_even pa_selected] in *.
    destruct (all_some_imap_nth _ _ _ _ 0%nat c He eq_refl) as (b & Hb & Hb'). cbn [Nat.add Nat.eqb andb negb nth_error opt_bind] in Hb. destruct (root_xs_even prm t 0) as [xs|]; [|discriminate Hb]. cbn [option_map opt_bind] in Hb. apply Some_inj in Hb. subst b.
    exists a, po, xs. split; [reflexivity|]. split; [lia|]. split; [reflexivity|]. split; [exact Hb'|]. split.
    - intros R ch Hin. apply in_combine_nth in Hin as (k & Hk & Hk'). destruct (all_some_imap_nth _ _ _ _ (S k) R He Hk) as (b & Hb & Hb2). cbn [Nat.add Nat.eqb andb negb nth_error opt_bind] in Hb. rewrite Hk' in Hb. cbn [opt_bind] in Hb.
      apply Some_inj in Hb. subst b. eauto.
    - intros R ch Hin. apply in_combine_nth in Hin as (k & Hk & Hk'). destruct (all_some_imap_nth _ _ _ _ k R Ho Hk) as (b & Hb & Hb2). cbn [Nat.add length] in Hb. exists k. rewrite Hb2. f_equal. rewrite Bool.andb_false_r in Hb.
      assert (Hch : (if (k <? S (length po) - 1)%nat then nth_error (c :: pe) (k + 1) else Some sel) = Some ch).
      { destruct (Nat.ltb_spec k (S (length po) - 1)).
        - rewrite Nat.add_1_r. cbn [nth_error]. rewrite nth_error_app1 in Hk' by lia. exact Hk'.
        - assert (k < length (pe ++ [sel]))%nat by (apply nth_error_Some; rewrite Hk'; discriminate). rewrite app_length in H0. cbn [length] in H0. rewrite nth_error_app2 in Hk' by lia. replace (k - length pe)%nat with 0%nat in Hk' by lia. exact Hk'. }
      rewrite Hch in Hb. cbn [opt_bind] in Hb. apply Some_inj in Hb. congruence.
  Qed.
  Lemma odd_links (p : Path P0 P1) c (sts : list (Step P1 P0)) (sts1 : list (Step P0 P1)) : length (pa_even p) = length (pa_odd p) ->
    even_steps L prm t (mkPath (pa_selected p) (c :: pa_odd p) (pa_even p)) true = Some sts -> odd_steps L prm t (mkPath (pa_selected p) (c :: pa_odd p) (pa_even p)) true = Some sts1 ->
    exists xs, root_xs_odd prm t 0 = Some xs /\ nth_error sts1 0 = Some (inl xs, hd (pa_selected p) (pa_even p)) /\
      (forall R ch, In (R, ch) (combine (pa_even p) (pa_odd p)) -> exists k, nth_error sts k = Some (inr (L, R), ch)) /\
      (forall R ch, In (R, ch) (combine (pa_odd p) (tl (pa_even p ++ [pa_selected p]))) -> exists k, nth_error sts1 k = Some (inr (L, R), ch)).
  Proof.
    intros Hl He Ho. destruct p as [sel po pe]. cbn [pa_odd pa_even pa_selected] in *. unfold even_steps, odd_steps in *. cbn [pa_odd pa_even pa_selected length] in *. replace (S (length po) - 1)%nat with (length po) in Ho by lia.
    assert (Hch : forall k ch, nth_error (pe ++ [sel]) k = Some ch -> (if (k <? length po)%nat then nth_error pe k else Some sel) = Some ch).
    { intros k ch Hk. destruct (Nat.ltb_spec k (length po)).
      - rewrite nth_error_app1 in Hk by lia. exact Hk.
      - assert (Hlt : (k < length (pe ++ [sel]))%nat) by (apply nth_error_Some; rewrite Hk; discriminate). rewrite app_length in Hlt. cbn [length] in Hlt. rewrite nth_error_app2 in Hk by lia. replace (k - length pe)%nat with 0%nat in Hk by lia. exact Hk. }
    destruct (all_some_imap_nth _ _ _ _ 0%nat c Ho eq_refl) as (b & Hb & Hb'). cbn [Nat.add Nat.eqb andb] in Hb. rewrite (Hch 0%nat (hd sel pe)) in Hb by (destruct pe; reflexivity). cbn [opt_bind] in Hb.
    destruct (root_xs_odd prm t 0) as [xs|]; [|discriminate Hb]. cbn [option_map opt_bind] in Hb. apply Some_inj in Hb. subst b. exists xs. split; [reflexivity|]. split; [exact Hb'|]. split.
    - intros R ch Hin. apply in_combine_nth in Hin as (k & Hk & Hk'). destruct (all_some_imap_nth _ _ _ _ k R He Hk) as (b & Hb & Hb2). exists k. rewrite Hb2. f_equal. cbn [Nat.add negb] in Hb. rewrite Bool.andb_false_r, Nat.add_1_r in Hb. cbn [opt_bind nth_error] in Hb.
      rewrite Hk' in Hb. cbn [opt_bind] in Hb. apply Some_inj in Hb. congruence.
    - intros R ch Hin. apply in_combine_nth in Hin as (k & Hk & Hk'). destruct (all_some_imap_nth _ _ _ _ (S k) R Ho Hk) as (b & Hb & Hb2). exists (S k). rewrite Hb2. f_equal. cbn [Nat.add] in Hb.
      rewrite (Hch (S k) ch) in Hb by (destruct (pe ++ [sel]) eqn:Ep; [destruct pe; discriminate Ep|exact Hk']). cbn [opt_bind Nat.eqb andb] in Hb. apply Some_inj in Hb. congruence.
  Qed.
End Main.

Theorem C83_tied_sound : forall (F0 F1 : PField) (P0 : SWCurve F1 F0) (P1 : SWCurve F0 F1) (E0 : TrEnv P0) (E1 : TrEnv P1) (enc0 : P0 -> bytes) (enc1 : P1 -> bytes)
    bp0 pc0 delta0 bp1 pc1 delta1 (prm : SRParams P0 P1) (L M : nat) (set : list P0) fuel height t p (t0 t0' : VState P0) (t1 t1' : VState P1) R bits0 bits1 w0 w1 bl0 bl1 cs0 cs1,
  sl_new bp0 pc0 delta0 = Some (even_p prm) -> sl_new bp1 pc1 delta1 = Some (odd_p prm) -> sw_a P0 = 0 -> sw_a P1 = 0 ->
  (forall y : F1, y * y <> sw_b P0) -> (forall y : F0, y * y <> sw_b P1) ->
  (15 * 8 ^ Z.of_nat (windows (S:=F0) - 2) <= Z.of_N (pf_mod F0))%Z -> (15 * 8 ^ Z.of_nat (windows (S:=F1) - 2) <= Z.of_N (pf_mod F1))%Z ->
  from_set fuel L M prm set height = TOk t -> (0 < M)%nat ->
  verify_from E0 E1 enc0 enc1 true true L prm t p t0 t1 = Some (t0', t1', R, (bits0, bits1)) ->
  incl (v_cs t0') cs0 -> satisfies w0 cs0 -> incl (v_cs t1') cs1 -> satisfies w1 cs1 ->
  all_opened pc0 bp0 w0 bl0 t0' -> all_opened pc1 bp1 w1 bl1 t1' ->
  (exists leaf e b, In leaf set /\ In b bits1 /\ rerandomizes (even_p prm) leaf R e (scalar_of w1 b)) \/
  broken L (even_p prm) w0 bl0 t0' w1 bits1 (fun xs => t_values prm t (inl xs)) \/
  broken L (odd_p prm) w1 bl1 t1' w0 bits0 (fun xs => t_values prm t (inr xs)).
Proof.
  intros F0 F1 P0 P1 E0 E1 enc0 enc1 bp0 pc0 delta0 bp1 pc1 delta1 prm L M set fuel height t p t0 t0' t1 t1' R bits0 bits1 w0 w1 bl0 bl1 cs0 cs1 Hs0 Hs1 Ha0 Ha1 Hb0 Hb1 Hq0 Hq1 Ht HM Hv Hi0 Hw0 Hi1 Hw1 Ho0 Ho1.
  assert (Hm0 : (2 < pf_mod F0)%N) by (pose proof (Z.pow_pos_nonneg 8 (Z.of_nat (windows (S:=F0) - 2)) ltac:(lia) ltac:(lia)); lia).
  assert (Hm1 : (2 < pf_mod F1)%N) by (pose proof (Z.pow_pos_nonneg 8 (Z.of_nat (windows (S:=F1) - 2)) ltac:(lia) ltac:(lia)); lia).
  assert (Hbz0 : sw_b P0 <> 0) by (intros K; apply (Hb0 0); rewrite K; apply fmul_0_l).
  assert (Hbz1 : sw_b P1 <> 0) by (intros K; apply (Hb1 0); rewrite K; apply fmul_0_l).
  destruct (sl_new_good _ _ _ _ Hs0) as (_ & Ebp0 & Epc0 & _), (sl_new_good _ _ _ _ Hs1) as (_ & Ebp1 & Epc1 & _). rewrite <- Ebp0, <- Epc0 in Ho0. rewrite <- Ebp1, <- Epc1 in Ho1.
  unfold verify_from in Hv. destruct (verification_commitments t p) as [p'|] eqn:Ec; [|discriminate Hv]. cbn [opt_bind] in Hv.
  destruct (commitments_shape _ _ _ Ec) as (Hsh & Esel & Ero & Hp').
  destruct (t_height t =? length (pa_even p') + length (pa_odd p'))%nat eqn:Eh; [|discriminate Hv]. cbn [andb negb] in Hv. apply Nat.eqb_eq in Eh.
  rewrite Ero in Hv. cbn [opt_bind] in Hv.
  destruct (even_steps L prm t p' _) as [sts0|] eqn:Es0; [|discriminate Hv]. cbn [opt_bind] in Hv. destruct (step_levels E0 true enc1 (odd_p prm) t0 sts0) as [[t0'' bs0]|] eqn:R0; [|discriminate Hv]. cbn [opt_bind] in Hv.
  destruct (odd_steps L prm t p' _) as [sts1|] eqn:Es1; [|discriminate Hv]. cbn [opt_bind] in Hv. destruct (step_levels E1 true enc0 (even_p prm) t1 sts1) as [[t1'' bs1]|] eqn:R1; [|discriminate Hv]. cbn [opt_bind fst snd] in Hv.
  apply Some_inj in Hv. apply pair_inj in Hv as [Hv Hbits]. apply pair_inj in Hbits as [-> ->]. apply pair_inj in Hv as [Hv HR]. apply pair_inj in Hv as [-> ->]. rewrite Esel in HR. subst R.
  pose proof (steps_say E0 enc1 _ _ _ _ t0' w0 cs0 Hs1 Ha1 Hbz1 Hq1 Hi0 Hw0 _ _ _ _ R0 (grows_refl _)) as Say0. pose proof (steps_say E1 enc0 _ _ _ _ t1' w1 cs1 Hs0 Ha0 Hbz0 Hq0 Hi1 Hw1 _ _ _ _ R1 (grows_refl _)) as Say1.
  destruct (from_set_ok _ _ _ _ _ _ _ Ht) as (_ & d & Hd & _). rewrite (tree_ok_height _ _ _ _ _ _ Hd) in Eh.
  set (leaves0 := fun x : P0 + P1 => match x with inl a => In a set | inr _ => False end).
  set (Bad := broken L (even_p prm) w0 bl0 t0' w1 bits1 (fun xs => t_values prm t (inl xs)) \/ broken L (odd_p prm) w1 bl1 t1' w0 bits0 (fun xs => t_values prm t (inr xs))).
  set (I0 := fun d n => within L M d (even_p prm) (odd_p prm) leaves0 (t_values prm t) n).
  set (I1 := fun d n => within (P0 := P1) (P1 := P0) L M d (odd_p prm) (even_p prm) (fun x => leaves0 (swap_sum x)) (fun x => t_values prm t (swap_sum x)) n).
  assert (Hwalk : forall l0 l1 d R, (forall R ch, In (R, ch) l0 -> exists k, nth_error sts0 k = Some (inr (L, R), ch)) -> (forall R ch, In (R, ch) l1 -> exists k, nth_error sts1 k = Some (inr (L, R), ch)) ->
    linked d R l0 l1 (pa_selected p) -> (match R with inl a => exists n, I0 d n /\ shown (even_p prm) w1 bits1 n a | inr b => exists n, I1 d n /\ shown (odd_p prm) w0 bits0 n b end) ->
    (exists leaf e b, In leaf set /\ In b bits1 /\ rerandomizes (even_p prm) leaf (pa_selected p) e (scalar_of w1 b)) \/ Bad).
  { intros l0 l1 d' R K0 K1 Hl HR.
    destruct (walk_down l0 l1 I0 I1 (shown (even_p prm) w1 bits1) (shown (odd_p prm) w0 bits0) Bad) with (d := d') (R := R) (k0 := l0) (k1 := l1) (fin := pa_selected p) as [HB|(n & Hn & Hsn)]; try assumption; try apply incl_refl.
    - intros d1 n R2 ch Hn Hsn Hin. destruct (K0 _ _ Hin) as (k & Hk). destruct (Forall2_at _ _ _ _ _ Say0 Hk) as (b & Hb & Hsay).
      destruct (level_step L M d1 (even_p prm) (odd_p prm) leaves0 (t_values prm t) n R2 ch w0 w1 bl0 t0' bits0 bits1 b Hm0 HM Ha1 Hb1 Hn Hsn Ho0 Hsay Hb) as [HB|Hc]; [left; left; exact HB|right; exact Hc].
    - intros d1 n R2 ch Hn Hsn Hin. destruct (K1 _ _ Hin) as (k & Hk). destruct (Forall2_at _ _ _ _ _ Say1 Hk) as (b & Hb & Hsay).
      destruct (level_step L M d1 (odd_p prm) (even_p prm) (fun x => leaves0 (swap_sum x)) (fun x => t_values prm t (swap_sum x)) n R2 ch w1 w0 bl1 t1' bits1 bits0 b Hm1 HM Ha0 Hb0 Hn Hsn Ho1 Hsay Hb) as [HB|(c & Hc & Hsc)]; [left; right; exact HB|right].
      exists c. split; [|exact Hsc]. destruct Hc as (C1 & (l & C2 & C3) & C4). split; [exact C1|]. split.
      + exists l. split; [exact C2|]. revert C3. apply Forall_impl. intros x. rewrite swap_twice. auto.
      + intros xs Hxs. specialize (C4 xs Hxs). rewrite swap_twice in C4. exact C4.
    - right. exact HB.
    - left. destruct Hn as (_ & (l & Hl' & Hal) & _). destruct n as [cm cs h el|c]; [contradiction|]. cbn [holds] in Hl'. subst l. apply Forall_cons_iff in Hal as [Hal _]. destruct Hsn as (c' & e & b & Hc' & Hb & Hr). cbn [n_commitment] in Hc'. apply Some_inj in Hc'. subst c'.
      exists c, e, b. auto. }
  destruct t as [n|n].
  - destruct Hp' as (Hpo & c & Hpe). unfold path_shape in Hsh. destruct p' as [sel' po' pe']. cbn [pa_selected pa_odd pa_even] in *. subst sel' po' pe'. cbn [length] in Eh.
    destruct (even_links L prm (TEven n) p c sts0 sts1 ltac:(lia) Es0 Es1) as (a & po & xs & Epo & Hlen & Hxs & Hst0 & K0 & K1).
    destruct Hd as (_ & Hho & Hwc). destruct n as [cm cs h el|c0]; [|discriminate Hxs]. destruct d as [|d]; [contradiction|]. cbn [root_xs_even] in Hxs.
    assert (Hin : within L M (S d) (even_p prm) (odd_p prm) leaves0 (t_values prm (TEven (Branch cm cs h el))) (Branch cm cs h el)).
    { split; [exact Hwc|]. split; [exists (map inl set); split; [exact Hho|]; apply Forall_forall; intros x Hx; apply in_map_iff in Hx as (y & <- & Hy); exact Hy|]. intros ys Hys. cbn [t_values]. replace (n_height (Branch cm cs h el)) with (S d) by (cbn; symmetry; apply Hwc). exact Hys. }
    destruct (Forall2_at _ _ _ _ _ Say0 Hst0) as (b & Hb & Hsay).
    apply (Hwalk (combine (pa_even p) po) (combine (a :: po) (pa_even p ++ [pa_selected p])) d (inr a) K0 K1).
    + replace d with (2 * length (pa_even p) + 1)%nat by (rewrite Epo in Eh; cbn [length] in Eh; lia). apply linked_even, Hlen.
    + destruct (root_step L M d (even_p prm) (odd_p prm) leaves0 (t_values prm (TEven (Branch cm cs h el))) cm cs h el xs a w0 t0' bits0 b Ha1 Hb1 Hin Hxs Hsay Hb) as (c1 & Hc1 & Hs). exists c1. split; assumption.
  - destruct Hp' as (Hpe & c & Hpo). unfold path_shape in Hsh. destruct p' as [sel' po' pe']. cbn [pa_selected pa_odd pa_even] in *. subst sel' po' pe'. cbn [length] in Eh.
    destruct (odd_links L prm (TOdd n) p c sts0 sts1 ltac:(lia) Es0 Es1) as (xs & Hxs & Hst0 & K0 & K1).
    destruct Hd as (_ & Hho & Hwc). destruct n as [cm cs h el|c0]; [|discriminate Hxs]. destruct d as [|d]; [contradiction|]. cbn [root_xs_odd] in Hxs.
    assert (Hin : within (P0 := P1) (P1 := P0) L M (S d) (odd_p prm) (even_p prm) (fun x => leaves0 (swap_sum x)) (fun x => t_values prm (TOdd (Branch cm cs h el)) (swap_sum x)) (Branch cm cs h el)).
    { split; [exact Hwc|]. split; [exists (map inr set); split; [exact Hho|]; apply Forall_forall; intros x Hx; apply in_map_iff in Hx as (y & <- & Hy); exact Hy|]. intros ys Hys. cbn [t_values]. rewrite swap_twice. replace (n_height (Branch cm cs h el)) with (S d) by (cbn; symmetry; apply Hwc). exact Hys. }
    destruct (Forall2_at _ _ _ _ _ Say1 Hst0) as (b & Hb & Hsay).
    apply (Hwalk (combine (pa_even p) (pa_odd p)) (combine (pa_odd p) (tl (pa_even p ++ [pa_selected p]))) d (inl (hd (pa_selected p) (pa_even p))) K0 K1).
    + replace d with (2 * length (pa_even p))%nat by lia. apply linked_odd. lia.
    + destruct (root_step L M d (odd_p prm) (even_p prm) (fun x => leaves0 (swap_sum x)) (fun x => t_values prm (TOdd (Branch cm cs h el)) (swap_sum x)) cm cs h el xs _ w1 t1' bits1 b Ha0 Hb0 Hin Hxs Hsay Hb) as (c1 & (C1 & (l & C2 & C3) & C4) & Hs).
      exists c1. split; [|exact Hs]. split; [exact C1|]. split.
      * exists l. split; [exact C2|]. revert C3. apply Forall_impl. intros x. rewrite swap_twice. auto.
      * intros ys Hys. specialize (C4 ys Hys). rewrite swap_twice in C4. exact C4.
Qed.
Print Assumptions C83_tied_sound.

(** The blindings of the vector commitments of a prover (no code modelled). *)
Definition blinds {F : Field} (s : PState F) (k : nat) : F := fst (nth k (p_vec s) (0, [])).
Lemma session_opened {F : Field} {V : VSpace F} (E : TrEnv V) pc g tr s (t : VState V) : session E pc g tr s t -> all_opened pc g (p_asg s) (blinds s) t.
Proof.
  intros Hs k c dim Hk. destruct (session_agree E pc g tr _ _ Hs) as [_ Ha]. rewrite (ag_vec _ _ _ _ Ha), nth_error_map in Hk. destruct (nth_error (p_vec s) k) as [[b v]|] eqn:Ev; [|discriminate Hk].
  cbn [option_map fst snd] in Hk. apply Some_inj, pair_inj in Hk as [<- <-]. unfold blinds. rewrite (nth_error_nth _ _ _ Ev). cbn [fst]. f_equal.
  unfold vec_values. symmetry. apply nth_ext with (d := 0) (d' := 0); [rewrite map_length, seq_length; reflexivity|]. intros j Hj. rewrite map_length, seq_length in Hj.
  rewrite (nth_indep _ 0 (p_asg s (VectorCommit k 0))) by (rewrite map_length, seq_length; exact Hj). rewrite (map_nth (fun j => p_asg s (VectorCommit k j))), seq_nth by exact Hj. cbn [Nat.add].
  unfold p_asg. cbn. rewrite Ev. cbn. rewrite (nth_error_nth' _ 0 Hj). reflexivity.
Qed.

(** The added constraint does not stand in the way of honest provers: for every leaf and
    admissible scalars, prover and verifier build the same satisfied circuits (with
    C08: the proofs made of them are accepted), and the public point is the leaf
    re-randomized by the scalar the prover returns. *)
Theorem C83_tied_complete : forall (F0 F1 : PField) (P0 : SWCurve F1 F0) (P1 : SWCurve F0 F1) (E0 : TrEnv P0) (E1 : TrEnv P1) (enc0 : P0 -> bytes) (enc1 : P1 -> bytes)
    bp0 pc0 delta0 bp1 pc1 delta1 (prm : SRParams P0 P1) (L M : nat) (set : list P0) fuel height t oc dbg i leaf evens odds os es tr0 tr1 s0 s1 (t0 : VState P0) (t1 : VState P1),
  sl_new bp0 pc0 delta0 = Some (even_p prm) -> sl_new bp1 pc1 delta1 = Some (odd_p prm) -> sw_a P0 = 0 -> sw_a P1 = 0 ->
  from_set fuel L M prm set height = TOk t -> (N.of_nat (L ^ t_height t) < 2 ^ 64)%N -> (0 < M)%nat -> t_height t <> 0%nat ->
  nth_error set i = Some leaf -> tree_witness oc L t (N.of_nat i) 0 prm = Some (evens, odds) ->
  (forall k w, nth_error evens k = Some w -> admissible (odd_p prm) (w_child w) (os k)) -> (forall k w, nth_error odds k = Some w -> admissible (even_p prm) (w_child w) (es k)) ->
  session E0 pc0 bp0 tr0 s0 t0 -> session E1 pc1 bp1 tr1 s1 t1 -> honest s0 -> honest s1 ->
  exists s0' s1' p r (t0' : VState P0) (t1' : VState P1) bits,
    prove_from E0 E1 enc0 enc1 true pc0 pc1 prm evens odds os es s0 s1 = Some (s0', s1', (p, r)) /\
    verify_from E0 E1 enc0 enc1 true dbg L prm t p t0 t1 = Some (t0', t1', pa_selected p, bits) /\
    session E0 pc0 bp0 tr0 s0' t0' /\ session E1 pc1 bp1 tr1 s1' t1' /\ honest s0' /\ honest s1' /\
    satisfies (p_asg s0') (v_cs t0') /\ satisfies (p_asg s1') (v_cs t1') /\
    all_opened pc0 bp0 (p_asg s0') (blinds s0') t0' /\ all_opened pc1 bp1 (p_asg s1') (blinds s1') t1' /\
    pa_selected p = vadd leaf (vsmul r (pcB_blinding pc0)).
Proof.
  intros F0 F1 P0 P1 E0 E1 enc0 enc1 bp0 pc0 delta0 bp1 pc1 delta1 prm L M set fuel height t oc dbg i leaf evens odds os es tr0 tr1 s0 s1 t0 t1 Hs0 Hs1 Ha0 Ha1 Ht Hc HM Hh Hleaf Hw Aos Aes Hses0 Hses1 Hh0 Hh1.
  destruct (sl_new_good _ _ _ _ Hs0) as (Hg0 & <- & <- & _), (sl_new_good _ _ _ _ Hs1) as (Hg1 & <- & <- & _).
  destruct (leaf_of_index oc L M prm set fuel height t i leaf evens odds Ht Hc HM Hleaf Hw) as (root & Hr & Ho).
  destruct (total_from E0 E1 enc0 enc1 true L prm root (t_height t) evens odds leaf os es _ _ Hg0 Hg1 Ha0 Ha1 Ho Aos Aes Hh0 Hh1) as (s0' & s1' & p & r & Hp & Hh0' & Hh1' & _).
  assert (Zos : forall k, (k < length evens)%nat -> os k <> 0).
  { intros k Hk Hz. destruct (nth_error evens k) as [w|] eqn:Ek; [|apply nth_error_None in Ek; lia]. apply (proj1 (Aos k w Ek)). rewrite Hz. apply zero_exceptional. eapply good_windows. exact (proj2 (proj2 Hg1)). }
  assert (Zes : forall k, (k < length odds)%nat -> es k <> 0).
  { intros k Hk Hz. destruct (nth_error odds k) as [w|] eqn:Ek; [|apply nth_error_None in Ek; lia]. apply (proj1 (Aes k w Ek)). rewrite Hz. apply zero_exceptional. eapply good_windows. exact (proj2 (proj2 Hg0)). }
  destruct (lockstep_from E0 E1 enc0 enc1 true _ _ dbg L prm t root (t_height t) evens odds leaf os es s0 s1 t0 t1 s0' s1' p r (session_locked E0 _ _ tr0) (session_locked E1 _ _ tr1) Hr Ho Hh (tree_witness_root _ _ _ _ _ _ _ _ Hw Hh) ltac:(reflexivity) Zos Zes Hses0 Hses1 Hp)
    as (t0' & t1' & bits & Hv & S0 & S1 & Hsel).
  exists s0', s1', p, r, t0', t1', bits. split; [exact Hp|]. split; [exact Hv|]. split; [exact S0|]. split; [exact S1|]. split; [exact Hh0'|]. split; [exact Hh1'|].
  split; [|split; [|split; [eapply session_opened; exact S0|split; [eapply session_opened; exact S1|exact Hsel]]]].
  - destruct (session_agree _ _ _ _ _ _ S0) as [_ Ag]. rewrite <- (ag_cs _ _ _ _ Ag). apply honest_satisfies, Hh0'.
  - destruct (session_agree _ _ _ _ _ _ S1) as [_ Ag]. rewrite <- (ag_cs _ _ _ _ Ag). apply honest_satisfies, Hh1'.
Qed.
Print Assumptions C83_tied_complete.

Section Shift.
  Context {F0 F1 : PField} {P0 : SWCurve F1 F0}.
  Add Field FF0shift : (f_th F0).
  Lemma rerandomizes_shift (prm : SLParams P0) s' m R e r :
    rerandomizes prm (vadd (vsmul s' (pcB_blinding (sl_pc prm))) m) R e r -> rerandomizes prm m R e (e * s' + r).
  Proof. intros [He H]. split; [exact He|]. rewrite H. vring. Qed.
End Shift.

(** If moreover the public point and the leaves are commitments with known openings
    (coins: value, tag and key), the content of the public point is that of a leaf, and
    the sign is 1: or else there is a relation between the generators. *)
Theorem C83_content : forall (F0 F1 : PField) (P0 : SWCurve F1 F0) (P1 : SWCurve F0 F1) (E0 : TrEnv P0) (E1 : TrEnv P1) (enc0 : P0 -> bytes) (enc1 : P1 -> bytes)
    bp0 pc0 delta0 bp1 pc1 delta1 (prm : SRParams P0 P1) (L M : nat) (set : list P0) fuel height t p (t0 t0' : VState P0) (t1 t1' : VState P1) R bits0 bits1 w0 w1 bl0 bl1 cs0 cs1
    (s : F0) (ys : list F0) (opening : P0 -> F0 * list F0) G,
  sl_new bp0 pc0 delta0 = Some (even_p prm) -> sl_new bp1 pc1 delta1 = Some (odd_p prm) -> sw_a P0 = 0 -> sw_a P1 = 0 ->
  (forall y : F1, y * y <> sw_b P0) -> (forall y : F0, y * y <> sw_b P1) ->
  (15 * 8 ^ Z.of_nat (windows (S:=F0) - 2) <= Z.of_N (pf_mod F0))%Z -> (15 * 8 ^ Z.of_nat (windows (S:=F1) - 2) <= Z.of_N (pf_mod F1))%Z ->
  from_set fuel L M prm set height = TOk t -> (0 < M)%nat ->
  verify_from E0 E1 enc0 enc1 true true L prm t p t0 t1 = Some (t0', t1', R, (bits0, bits1)) ->
  incl (v_cs t0') cs0 -> satisfies w0 cs0 -> incl (v_cs t1') cs1 -> satisfies w1 cs1 ->
  all_opened pc0 bp0 w0 bl0 t0' -> all_opened pc1 bp1 w1 bl1 t1' ->
  nth_error (G_vec bp0) 0 = Some G -> (length ys <= length G)%nat -> R = vec_commitment pc0 bp0 s ys ->
  (forall leaf, In leaf set -> leaf = vec_commitment pc0 bp0 (fst (opening leaf)) (snd (opening leaf)) /\ length (snd (opening leaf)) = length ys) ->
  (exists leaf b, In leaf set /\ In b bits1 /\ ys = snd (opening leaf) /\ s = fst (opening leaf) + scalar_of w1 b) \/
  (exists leaf e b, In leaf set /\ In b bits1 /\ (e = 1 \/ e = - (1)) /\ clash (even_p prm) (snd (opening leaf)) ys s (e * fst (opening leaf) + scalar_of w1 b) e) \/
  broken L (even_p prm) w0 bl0 t0' w1 bits1 (fun xs => t_values prm t (inl xs)) \/
  broken L (odd_p prm) w1 bl1 t1' w0 bits0 (fun xs => t_values prm t (inr xs)).
Proof.
  intros F0 F1 P0 P1 E0 E1 enc0 enc1 bp0 pc0 delta0 bp1 pc1 delta1 prm L M set fuel height t p t0 t0' t1 t1' R bits0 bits1 w0 w1 bl0 bl1 cs0 cs1 s ys opening G Hs0 Hs1 Ha0 Ha1 Hb0 Hb1 Hq0 Hq1 Ht HM Hv Hi0 Hw0 Hi1 Hw1 Ho0 Ho1 HG Hlen HR Hop.
  destruct (C83_tied_sound _ _ _ _ _ _ _ _ _ _ _ _ _ _ _ _ _ _ _ _ _ _ _ _ _ _ _ _ _ _ _ _ _ _ _ Hs0 Hs1 Ha0 Ha1 Hb0 Hb1 Hq0 Hq1 Ht HM Hv Hi0 Hw0 Hi1 Hw1 Ho0 Ho1) as [(leaf & e & b & Hl & Hb & He & Hr)|[HB|HB]]; [|right; right; left; exact HB|right; right; right; exact HB].
  destruct (Hop leaf Hl) as [Hol Hll]. destruct (opening leaf) as [s' xs] eqn:Eo. cbn [fst snd] in *.
  destruct (sl_new_good _ _ _ _ Hs0) as (_ & Ebp0 & Epc0 & _).
  assert (Hm0 : (2 < pf_mod F0)%N) by (pose proof (Z.pow_pos_nonneg 8 (Z.of_nat (windows (S:=F0) - 2)) ltac:(lia) ltac:(lia)); lia).
  assert (Hpl : plain_commitment (even_p prm) 0 xs (msm xs G)). { exists G. rewrite Ebp0. split; [exact HG|]. split; [lia|]. unfold slice. cbn [Nat.mul skipn]. rewrite msm_firstn_r by lia. reflexivity. }
  assert (Hre : rerandomizes (even_p prm) (msm xs G) R e (e * s' + scalar_of w1 b)).
  { apply rerandomizes_shift. split; [exact He|]. rewrite Hr, Hol, Epc0. unfold vec_commitment. rewrite (nth_error_nth _ _ _ HG). reflexivity. }
  rewrite <- Ebp0, <- Epc0 in HR.
  destruct (opening_unique (even_p prm) xs ys (msm xs G) R s (e * s' + scalar_of w1 b) e Hm0 Hpl Hre HR ltac:(lia)) as [Hcl|(-> & -> & ->)].
  - right. left. exists leaf, e, b. rewrite Eo. cbn [fst snd]. auto.
  - left. exists leaf, b. rewrite Eo. cbn [fst snd]. split; [exact Hl|]. split; [exact Hb|]. split; [reflexivity|]. rewrite fmul_1_l. reflexivity.
Qed.
Print Assumptions C83_content.

(** ** Demonstrations *)
Lemma toy_b1 : forall y : PF163, y * y <> sw_b TC1.
Proof. intros y. replace (sw_b TC1) with (fN 2 : PF163) by (apply fp_eq; vm_compute; reflexivity). apply (C38_curves_in_use PF163). do 5 right. left. reflexivity. Qed.
(** An opening of a point of the toy curve with the content 9; no code modelled. *)
Definition toy_opening (c : TC0) : PF163 * list PF163 :=
  match find (fun z => veqb c (vec_commitment toy_pcg big0 (fp_mk (p:=PM163) (Z.of_nat z)) [fp_mk (p:=PM163) 9])) (seq 0 163) with
  | Some z => (fp_mk (p:=PM163) (Z.of_nat z), [fp_mk (p:=PM163) 9])
  | None => (0, []) end.
Lemma toy_opened : forall leaf, In leaf toy_set -> leaf = vec_commitment toy_pcg big0 (fst (toy_opening leaf)) (snd (toy_opening leaf)) /\ length (snd (toy_opening leaf)) = 1%nat.
Proof.
  assert (H : forallb (fun leaf => veqb leaf (vec_commitment toy_pcg big0 (fst (toy_opening leaf)) (snd (toy_opening leaf))) && (length (snd (toy_opening leaf)) =? 1)%nat)%bool toy_set = true) by (vm_compute; reflexivity).
  intros leaf Hl. rewrite forallb_forall in H. specialize (H _ Hl). apply andb_prop in H as [H H']. apply veqb_true in H. apply Nat.eqb_eq in H'. auto.
Qed.
(** The toy tree of height 3 and its leaf number 3, the point 53: an honest prover meets
    all hypotheses of [C83_tied_sound] and, with the leaves as commitments to 9, those
    of [C83_content]. *)
Example C83_demo : exists prm t evens odds, sl_new big0 toy_pcg toy_delta = Some (even_p prm) /\ sl_new big1 toy_pcg1 toy_delta1 = Some (odd_p prm) /\ sw_a TC0 = 0 /\ sw_a TC1 = 0 /\
  (forall y : PF139, y * y <> sw_b TC0) /\ (forall y : PF163, y * y <> sw_b TC1) /\
  (15 * 8 ^ Z.of_nat (windows (S:=PF163) - 2) <= Z.of_N (pf_mod PF163))%Z /\ (15 * 8 ^ Z.of_nat (windows (S:=PF139) - 2) <= Z.of_N (pf_mod PF139))%Z /\
  from_set 6 2 2 prm toy_set None = TOk t /\ t_height t = 3%nat /\ tree_witness true 2 t 3 0 prm = Some (evens, odds) /\
  (forall k w, nth_error evens k = Some w -> admissible (odd_p prm) (w_child w) (toy_os k)) /\ (forall k w, nth_error odds k = Some w -> admissible (even_p prm) (w_child w) (toy_es k)) /\
  (forall leaf, In leaf toy_set -> leaf = vec_commitment toy_pcg big0 (fst (toy_opening leaf)) (snd (toy_opening leaf)) /\ length (snd (toy_opening leaf)) = 1%nat) /\
  exists s0' s1' p r (t0' : VState TC0) (t1' : VState TC1) bits G,
    prove_from EE0 EE1 ec0 ec1 true toy_pcg toy_pcg1 prm evens odds toy_os toy_es (p_new []) (p_new []) = Some (s0', s1', (p, r)) /\
    verify_from EE0 EE1 ec0 ec1 true true 2 prm t p (v_new []) (v_new []) = Some (t0', t1', pa_selected p, bits) /\
    satisfies (p_asg s0') (v_cs t0') /\ satisfies (p_asg s1') (v_cs t1') /\
    all_opened toy_pcg big0 (p_asg s0') (blinds s0') t0' /\ all_opened toy_pcg1 big1 (p_asg s1') (blinds s1') t1' /\
    pa_selected p = vadd (k163 53) (vsmul r (pcB_blinding toy_pcg)) /\
    nth_error (G_vec big0) 0 = Some G /\ (1 <= length G)%nat /\ pa_selected p = vec_commitment toy_pcg big0 (fst (toy_opening (k163 53)) + r) (snd (toy_opening (k163 53))).
Proof.
  destruct (with_tree_spec 0 (fun prm t e o => (t_height t =? 3)%nat && adm_all (odd_p prm) toy_os e && adm_all (even_p prm) toy_es o)%bool ltac:(vm_compute; reflexivity)) as (prm & t & e & o & H0 & H1 & Ht & Hw & H).
  apply andb_prop in H as [H Ao]. apply andb_prop in H as [Eh Ae]. apply Nat.eqb_eq in Eh. pose proof (adm_all_spec _ _ _ Ae) as Be. pose proof (adm_all_spec _ _ _ Ao) as Bo.
  exists prm, t, e, o. split; [exact H0|]. split; [exact H1|]. split; [reflexivity|]. split; [reflexivity|]. split; [exact toy_b|]. split; [exact toy_b1|]. split; [vm_compute; discriminate|]. split; [vm_compute; discriminate|].
  split; [exact Ht|]. split; [exact Eh|]. split; [exact Hw|]. split; [exact Be|]. split; [exact Bo|]. split; [exact toy_opened|].
  destruct (C83_tied_complete _ _ TC0 TC1 EE0 EE1 ec0 ec1 big0 toy_pcg toy_delta big1 toy_pcg1 toy_delta1 prm 2 2 toy_set 6 None t true true 3 (k163 53) e o toy_os toy_es [] [] (p_new []) (p_new []) (v_new []) (v_new [])
    H0 H1 eq_refl eq_refl Ht ltac:(rewrite Eh; vm_compute; reflexivity) ltac:(lia) ltac:(rewrite Eh; discriminate) eq_refl Hw Be Bo (ses_new _ _ _ _) (ses_new _ _ _ _) (honest_new _) (honest_new _))
    as (s0' & s1' & p & r & t0' & t1' & bits & C1 & C2 & _ & _ & _ & _ & C3 & C4 & C5 & C6 & C7).
  exists s0', s1', p, r, t0', t1', bits, (nth 0 (G_vec big0) []). split; [exact C1|]. split; [exact C2|]. split; [exact C3|]. split; [exact C4|]. split; [exact C5|]. split; [exact C6|]. split; [exact C7|].
  split; [vm_compute; reflexivity|]. split; [apply Nat.leb_le; vm_compute; reflexivity|].
  rewrite C7. destruct (toy_opened (k163 53)) as [E _]; [do 3 right; left; reflexivity|]. rewrite E at 1. unfold vec_commitment. rewrite vsmul_add_l, <- !vadd_assoc. f_equal. apply vadd_comm.
Qed.
(* test data or vocabulary of statements, no code modelled *)
Definition holds_b {F : Field} (w : Var -> F) (cs : list (LC F)) : bool := forallb (fun lc => feqb (lc_val w lc) 0) cs.
(** The relations of [broken] are not there by themselves: in the honest run on the toy
    tree there are none, although relations between generators of the toy group abound.
    [node_values] lists the values of the nodes.  No code modelled. *)
Definition slot_of {F : Field} {S : PField} {C : SWCurve F S} {B} (delta : C) (o : option (Node C B)) : F :=
  match o with Some c => match n_commitment c 0 with Some P => match coords (vadd P delta) with Some xy => fst xy | None => 0 end | None => 0 end | None => 0 end.
(* test data or vocabulary of statements, no code modelled *)
Fixpoint node_values (d : nat) {F0 F1 : PField} {P0 : SWCurve F1 F0} {P1 : SWCurve F0 F1} (delta0 : P0) (delta1 : P1) (n : Node P0 P1) : list (list F0 + list F1) :=
  match d, n with
  | S d', Branch _ cs _ _ => inl (map (slot_of delta1) cs) :: flat_map (fun o => match o with Some c => map swap_sum (node_values d' delta1 delta0 c) | None => [] end) cs
  | _, _ => []
  end.
Lemma values_listed : forall d {F0 F1 : PField} {P0 : SWCurve F1 F0} {P1 : SWCurve F0 F1} (delta0 : P0) (delta1 : P1) (n : Node P0 P1) xs, values_in d delta0 delta1 n xs -> In xs (node_values d delta0 delta1 n).
Proof.
  induction d as [|d IH]; intros F0 F1 P0 P1 delta0 delta1 n xs H; [destruct n; contradiction|]. destruct n as [pc cs h el|c]; [|contradiction]. cbn [values_in node_values] in *. destruct H as [(ys & -> & H)|(c & Hc & H)].
  - left. f_equal. induction H as [|o y cs ys Ho _ IHc]; [reflexivity|]. cbn [map]. rewrite IHc. f_equal. unfold slot_of. destruct o as [c|]; [|symmetry; exact Ho]. destruct Ho as (P & -> & ->). reflexivity.
  - right. apply in_flat_map. exists (Some c). split; [exact Hc|]. apply in_map_iff. exists (swap_sum xs). split; [destruct xs; reflexivity|]. apply IH, H.
Qed.
(* test data or vocabulary of statements, no code modelled *)
Definition clash_b {F : Field} {S : PField} {C : SWCurve F S} (prm : SLParams C) (xs ys : list S) (s r e : S) : bool :=
  let a := (s - r) :: (1 - e) :: zipw fsub ys (map (fmul e) xs) in
  (negb (forallb (fun x => feqb x 0) a) && veqb (msm a (pcB_blinding (sl_pc prm) :: sl_delta prm :: nth 0 (G_vec (sl_bp prm)) [])) v0)%bool.
Lemma clash_found {F : Field} {S : PField} {C : SWCurve F S} (prm : SLParams C) xs ys s r e : clash prm xs ys s r e -> clash_b prm xs ys s r e = true.
Proof.
  unfold clash, clash_b. cbv zeta. intros [Ha Hm]. apply andb_true_intro. split; [|apply veqb_true, Hm]. apply Bool.negb_true_iff. destruct (forallb _ _) eqn:E; [|reflexivity]. exfalso. rewrite forallb_forall in E.
  apply Exists_exists in Ha as (x & Hx & Hn). apply Hn, feqb_true, E, Hx.
Qed.
(* test data or vocabulary of statements, no code modelled *)
Definition broken_b {F0 F1 : PField} {P0 : SWCurve F1 F0} (L : nat) (prm0 : SLParams P0) (w : Var -> F0) (bl : nat -> F0) (t : VState P0) (w' : Var -> F1) (bits : list (list (Var * Var * Var))) (vals : list (list F0)) : bool :=
  existsb (fun k => existsb (fun xs => existsb (fun b => existsb (fun e => clash_b prm0 xs (vec_values w k L) (bl k) (scalar_of w' b) e) [1; - (1)]) bits) vals) (seq 0 (length (v_vec t))).
Lemma broken_found {F0 F1 : PField} {P0 : SWCurve F1 F0} L (prm0 : SLParams P0) w bl (t : VState P0) (w' : Var -> F1) bits (vals : list F0 -> Prop) l :
  (forall xs, vals xs -> In xs l) -> broken L prm0 w bl t w' bits vals -> broken_b L prm0 w bl t w' bits l = true.
Proof.
  intros Hl (k & R & xs & b & e & Hk & Hx & Hb & He & Hc). unfold broken_b. apply existsb_exists. exists k. split; [apply in_seq; split; [lia|]; apply nth_error_Some; rewrite Hk; discriminate|].
  apply existsb_exists. exists xs. split; [apply Hl, Hx|]. apply existsb_exists. exists b. split; [exact Hb|]. apply existsb_exists. exists e. split; [destruct He as [->| ->]; cbn; auto|]. apply clash_found, Hc.
Qed.
(* test data or vocabulary of statements, no code modelled *)
Definition tree_values (prm : SRParams TC0 TC1) (t : CurveTree TC0 TC1) : list (list PF163 + list PF139) :=
  match t with
  | TEven n => node_values (n_height n) (sl_delta (even_p prm)) (sl_delta (odd_p prm)) n
  | TOdd n => map swap_sum (node_values (n_height n) (sl_delta (odd_p prm)) (sl_delta (even_p prm)) n)
  end.
Lemma tree_values_listed prm t xs : t_values prm t xs -> In xs (tree_values prm t).
Proof.
  destruct t as [n|n]; cbn [t_values tree_values]; intros H; [apply values_listed, H|]. apply in_map_iff. exists (swap_sum xs). split; [destruct xs; reflexivity|]. apply values_listed, H.
Qed.
(* test data or vocabulary of statements, no code modelled *)
Definition inls {A B} (l : list (A + B)) : list A := flat_map (fun x => match x with inl a => [a] | inr _ => [] end) l.
(* test data or vocabulary of statements, no code modelled *)
Definition inrs {A B} (l : list (A + B)) : list B := flat_map (fun x => match x with inr a => [a] | inl _ => [] end) l.
(* test data or vocabulary of statements, no code modelled *)
Definition unbroken_run (prm : SRParams TC0 TC1) (t : CurveTree TC0 TC1) (e : list (Wit PF163 TC1)) (o : list (Wit PF139 TC0)) : bool :=
  match prove_from EE0 EE1 ec0 ec1 true toy_pcg toy_pcg1 prm e o toy_os toy_es (p_new []) (p_new []) with
  | Some (s0, s1, (p, r)) =>
    match verify_from EE0 EE1 ec0 ec1 true true 2 prm t p (v_new []) (v_new []) with
    | Some (t0, t1, _, (bits0, bits1)) => negb (broken_b 2 (even_p prm) (p_asg s0) (blinds s0) t0 (p_asg s1) bits1 (inls (tree_values prm t))) && negb (broken_b 2 (odd_p prm) (p_asg s1) (blinds s1) t1 (p_asg s0) bits0 (inrs (tree_values prm t)))
    | None => false end
  | None => false end.
Example C83_unbroken_demo : exists prm t evens odds s0' s1' p r (t0' : VState TC0) (t1' : VState TC1) R bits0 bits1,
  from_set 6 2 2 prm toy_set None = TOk t /\ tree_witness true 2 t 3 0 prm = Some (evens, odds) /\
  prove_from EE0 EE1 ec0 ec1 true toy_pcg toy_pcg1 prm evens odds toy_os toy_es (p_new []) (p_new []) = Some (s0', s1', (p, r)) /\
  verify_from EE0 EE1 ec0 ec1 true true 2 prm t p (v_new []) (v_new []) = Some (t0', t1', R, (bits0, bits1)) /\
  ~ broken 2 (even_p prm) (p_asg s0') (blinds s0') t0' (p_asg s1') bits1 (fun xs => t_values prm t (inl xs)) /\
  ~ broken 2 (odd_p prm) (p_asg s1') (blinds s1') t1' (p_asg s0') bits0 (fun xs => t_values prm t (inr xs)).
Proof.
  destruct (with_tree_spec 0 unbroken_run ltac:(vm_compute; reflexivity)) as (prm & t & e & o & _ & _ & Ht & Hw & H). unfold unbroken_run in H.
  destruct (prove_from EE0 EE1 ec0 ec1 true toy_pcg toy_pcg1 prm e o toy_os toy_es (p_new []) (p_new [])) as [[[s0 s1] [p r]]|] eqn:Ep; [|discriminate H].
  destruct (verify_from EE0 EE1 ec0 ec1 true true 2 prm t p (v_new []) (v_new [])) as [[[[t0 t1] R] [bits0 bits1]]|] eqn:Ev; [|discriminate H].
  apply andb_prop in H as [H0 H1]. apply Bool.negb_true_iff in H0, H1.
  exists prm, t, e, o, s0, s1, p, r, t0, t1, R, bits0, bits1. split; [exact Ht|]. split; [exact Hw|]. split; [exact Ep|]. split; [exact Ev|]. split; intros HB.
  - rewrite (broken_found _ _ _ _ _ _ _ _ (inls (tree_values prm t)) ltac:(intros xs Hx; apply tree_values_listed in Hx; apply in_flat_map; exists (inl xs); split; [exact Hx|left; reflexivity]) HB) in H0. discriminate H0.
  - rewrite (broken_found _ _ _ _ _ _ _ _ (inrs (tree_values prm t)) ltac:(intros xs Hx; apply tree_values_listed in Hx; apply in_flat_map; exists (inr xs); split; [exact Hx|left; reflexivity]) HB) in H1. discriminate H1.
Qed.
(** The forger of C68 against the tied verifier: the constraints of the code hold, one
    of the added constraints does not.  No code modelled. *)
Definition forger_stopped (prm : SRParams TC0 TC1) (t : CurveTree TC0 TC1) (e : list (Wit PF163 TC1)) (o : list (Wit PF139 TC0)) : bool :=
  match forge_path EE0 EE1 ec0 ec1 prm e o (k163 78) toy_os toy_es (p_new []) (p_new []) with
  | Some (s0, s1, p) =>
    match verify_from EE0 EE1 ec0 ec1 false true 2 prm t p (v_new []) (v_new []), verify_from EE0 EE1 ec0 ec1 true true 2 prm t p (v_new []) (v_new []) with
    | Some (t0, t1, _, _), Some (u0, u1, _, _) => holds_b (p_asg s0) (v_cs t0) && holds_b (p_asg s1) (v_cs t1) && negb (holds_b (p_asg s0) (v_cs u0) && holds_b (p_asg s1) (v_cs u1))
    | _, _ => false end
  | None => false end.
(* test data or vocabulary of statements, no code modelled *)
Definition C83_forger_value : bool := Eval vm_compute in with_tree 0 forger_stopped.
Example C83_forger_test : C83_forger_value = true.
Proof. reflexivity. Qed.
