(** * Sizes of the circuits and the number of generators they need *)
From Verif Require Export CircuitSize.
From Verif Require Import CSProofs CSMore UtilProofs R1CSVerif R1CSMore R1CSTotal R1CSMisc CSLogic RerandTables TreeProofs PropsTree SelPath PropsSelRerand SelBatch PropsSelBatch CoinProofs PropsCoin PropsR1CS.
Local Open Scope F_scope.

(** ** Sizes (no code modelled): [L] branching factor, [w] number of three-bit windows of
    the scalars, [h] height of the tree, [M] number of paths. *)
(** multipliers for [n] levels of single paths: 2 L + 21 w + 12 halves each *)
Definition levels_size (n L w : nat) : nat := (n * (2 * L + 21 * w + 12) + 1) / 2.
(** multipliers for [n] batched levels followed by the level of the leaves if [leaves] *)
Definition batch_size (n M L w : nat) (leaves : bool) : nat := (n * (M * (2 * L + 18) + 21 * w - 6) + (if leaves then M * (2 * L + 21 * w + 12) else 0) + 1) / 2.

Section Sizes.
  Context {F0 F1 : PField} {P0 : SWCurve F1 F0} {P1 : SWCurve F0 F1}.
  Variables (E0 : TrEnv P0) (E1 : TrEnv P1) (enc0 : P0 -> bytes) (enc1 : P1 -> bytes).
  Lemma levels_wide n L w : (1 <= n)%nat -> (L <= levels_size n L w)%nat.
  Proof. intros Hn. unfold levels_size. apply Nat.div_le_lower_bound; [lia|]. nia. Qed.
  Lemma batch_wide n M L w leaves : (2 <= w)%nat -> (1 <= n)%nat \/ leaves = true -> (L * M <= batch_size n M L w leaves)%nat.
  Proof.
    intros Hw H. unfold batch_size. apply Nat.div_le_lower_bound; [lia|]. destruct H as [H| ->].
    - assert (HB : (2 * (L * M) <= M * (2 * L + 18) + 21 * w - 6)%nat) by (replace (M * (2 * L + 18))%nat with (2 * (L * M) + 18 * M)%nat by ring; lia). revert HB. generalize (M * (2 * L + 18) + 21 * w - 6)%nat. intros B HB. destruct n as [|n]; [lia|]. rewrite Nat.mul_succ_l. lia.
    - replace (M * (2 * L + 21 * w + 12))%nat with (2 * (L * M) + M * (21 * w + 12))%nat by ring. generalize (n * (M * (2 * L + 18) + 21 * w - 6))%nat, (M * (21 * w + 12))%nat, (L * M)%nat. intros. lia.
  Qed.
  Lemma repeat_below {D} L n m : (n = 0 \/ L <= D)%nat -> (m = n) -> Forall (fun d => (d <= D)%nat) (repeat L m).
  Proof. intros [->|H] ->; [constructor|]. apply Forall_forall. intros x Hx. apply repeat_spec in Hx. lia. Qed.
  Lemma pred_count h : (if Nat.odd h then h / 2 else h / 2 - 1)%nat = ((h - 1) / 2)%nat /\ (if Nat.odd h then (h + 1) / 2 - 1 else (h + 1) / 2)%nat = (h / 2)%nat.
  Proof.
    destruct (Nat.odd h) eqn:Eo.
    - apply Nat.odd_spec in Eo as [k ->]. replace (2 * k + 1 - 1)%nat with (k * 2)%nat by lia. replace (2 * k + 1 + 1)%nat with ((k + 1) * 2)%nat by lia. replace (2 * k + 1)%nat with (1 + k * 2)%nat by lia.
      rewrite Nat.div_add, !Nat.div_mul by lia. change (1 / 2)%nat with 0%nat. lia.
    - assert (Ev : Nat.even h = true) by (rewrite <- Nat.negb_odd, Eo; reflexivity). apply Nat.even_spec in Ev as [k ->]. clear Eo. cbv iota. replace (2 * k)%nat with (k * 2)%nat by lia. rewrite (Nat.add_comm (k * 2) 1). rewrite Nat.div_add, Nat.div_mul by lia.
      change (1 / 2)%nat with 0%nat. destruct k as [|k]; [split; reflexivity|]. replace (S k * 2 - 1)%nat with (1 + k * 2)%nat by lia. rewrite Nat.div_add by lia. change (1 / 2)%nat with 0%nat. lia.
  Qed.
  Lemma even_path_size L prm (t : CurveTree P0 P1) p p' h tr t0' : root_width L t -> countable (odd_p prm) -> verification_commitments t p = Some p' -> (length (pa_even p) + length (pa_odd p) + 1 = h)%nat ->
    even_gadget E0 enc1 L prm t p' (v_new tr) = Some t0' -> v_size t0' = levels_size (h / 2) L (windows (S := F1)) /\ dims t0' = repeat L ((h - 1) / 2).
  Proof.
    intros Hw Hc Hp Hl H. destruct (completed_counts _ _ _ _ Hp Hl) as (Ee & Eo & Er). pose proof (even_gadget_dims E0 enc1 _ _ _ _ _ _ _ Er H) as D. pose proof (even_gadget_size E0 enc1 _ _ _ _ _ _ Hw Hc H) as N. apply fresh_num in N.
    rewrite Ee in *. rewrite (proj1 (pred_count h)) in D. change (dims (v_new tr)) with (@nil nat) in D. cbn [app] in D. split; [|exact D]. unfold levels_size. change (2 * L + 21 * windows (S := F1) + 12)%nat with (level_halves L (windows (S := F1))). rewrite <- N.
    apply dims_size. rewrite D. eapply repeat_below; [|reflexivity]. destruct (h / 2)%nat as [|k] eqn:Ek; [left; pose proof (Nat.div_le_mono (h - 1) h 2 ltac:(lia) ltac:(lia)); lia|right].
    rewrite N. unfold level_halves. fold (levels_size (S k) L (windows (S := F1))). apply levels_wide. lia.
  Qed.
  Lemma odd_path_size L prm (t : CurveTree P0 P1) p p' h tr t1' : root_width L t -> countable (even_p prm) -> verification_commitments t p = Some p' -> (length (pa_even p) + length (pa_odd p) + 1 = h)%nat ->
    odd_gadget E1 enc0 L prm t p' (v_new tr) = Some t1' -> v_size t1' = levels_size ((h + 1) / 2) L (windows (S := F0)) /\ dims t1' = repeat L (h / 2).
  Proof.
    intros Hw Hc Hp Hl H. destruct (completed_counts _ _ _ _ Hp Hl) as (Ee & Eo & Er). pose proof (odd_gadget_dims E1 enc0 _ _ _ _ _ _ _ Er H) as D. pose proof (odd_gadget_size E1 enc0 _ _ _ _ _ _ Hw Hc H) as N. apply fresh_num in N.
    rewrite Eo in *. rewrite (proj2 (pred_count h)) in D. change (dims (v_new tr)) with (@nil nat) in D. cbn [app] in D. split; [|exact D]. unfold levels_size. change (2 * L + 21 * windows (S := F0) + 12)%nat with (level_halves L (windows (S := F0))). rewrite <- N.
    apply dims_size. rewrite D. eapply repeat_below; [|reflexivity]. destruct ((h + 1) / 2)%nat as [|k] eqn:Ek; [left; pose proof (Nat.div_le_mono h (h + 1) 2 ltac:(lia) ltac:(lia)); lia|right].
    rewrite N. unfold level_halves. fold (levels_size (S k) L (windows (S := F0))). apply levels_wide. lia.
  Qed.
End Sizes.

(** ** C70: circuits have the expected size *)
(** Whatever path the prover sends: if its length fits the height of the tree (with debug
    assertions this is checked), the two circuits have exactly these sizes and numbers of
    vector commitments. *)
Theorem C70_path_size : forall (F0 F1 : PField) (P0 : SWCurve F1 F0) (P1 : SWCurve F0 F1) (E0 : TrEnv P0) (E1 : TrEnv P1) (enc0 : P0 -> bytes) (enc1 : P1 -> bytes)
    bp0 pc0 delta0 bp1 pc1 delta1 (prm : SRParams P0 P1) (L M : nat) (set : list P0) fuel height t dbg tr0 tr1 (t0' : VState P0) (t1' : VState P1) p sel,
  sl_new bp0 pc0 delta0 = Some (even_p prm) -> sl_new bp1 pc1 delta1 = Some (odd_p prm) -> from_set fuel L M prm set height = TOk t ->
  sr_verify E0 E1 enc0 enc1 dbg L prm t p (v_new tr0) (v_new tr1) = Some (t0', t1', sel) ->
  (dbg = true \/ length (pa_even p) + length (pa_odd p) + 1 = t_height t)%nat ->
  v_size t0' = levels_size (t_height t / 2) L (windows (S := F1)) /\ length (v_vec t0') = ((t_height t - 1) / 2)%nat /\
  v_size t1' = levels_size ((t_height t + 1) / 2) L (windows (S := F0)) /\ length (v_vec t1') = (t_height t / 2)%nat.
Proof.
  intros F0 F1 P0 P1 E0 E1 enc0 enc1 bp0 pc0 delta0 bp1 pc1 delta1 prm L M set fuel height t dbg tr0 tr1 t0' t1' p sel H0 H1 Ht Hv Hl.
  assert (Hl' : (length (pa_even p) + length (pa_odd p) + 1 = t_height t)%nat) by (destruct Hl as [->|Hl]; [symmetry; eapply C49_debug_length, Hv|exact Hl]).
  pose proof (from_set_width _ _ _ _ _ _ _ Ht) as Hw. pose proof (sl_new_countable _ _ _ _ H0) as C0. pose proof (sl_new_countable _ _ _ _ H1) as C1.
  unfold sr_verify in Hv. destruct (verification_commitments t p) as [p'|] eqn:Ep; [|discriminate]. cbn [opt_bind] in Hv. destruct (dbg && _)%bool; [discriminate|].
  destruct (even_gadget E0 enc1 L prm t p' (v_new tr0)) as [a|] eqn:Ea; [|discriminate]. cbn [opt_bind] in Hv. destruct (odd_gadget E1 enc0 L prm t p' (v_new tr1)) as [b|] eqn:Eb; [|discriminate]. cbn [opt_bind] in Hv. apply Some_inj in Hv. injection Hv as <- <- _.
  destruct (even_path_size E0 enc1 L prm t p p' (t_height t) tr0 a Hw C1 Ep Hl' Ea) as [S0 D0]. destruct (odd_path_size E1 enc0 L prm t p p' (t_height t) tr1 b Hw C0 Ep Hl' Eb) as [S1 D1].
  split; [exact S0|]. split; [|split; [exact S1|]].
  - rewrite <- (map_length snd). fold (dims a). rewrite D0, repeat_length. reflexivity.
  - rewrite <- (map_length snd). fold (dims b). rewrite D1, repeat_length. reflexivity.
Qed.
Print Assumptions C70_path_size.

(** An honest run from fresh transcripts. *)
Lemma path_run {F0 F1 : PField} {P0 : SWCurve F1 F0} {P1 : SWCurve F0 F1} (E0 : TrEnv P0) (E1 : TrEnv P1) (enc0 : P0 -> bytes) (enc1 : P1 -> bytes)
    bp0 pc0 delta0 bp1 pc1 delta1 (prm : SRParams P0 P1) (L M : nat) (set : list P0) fuel height t oc i leaf evens odds os es tr0 tr1 :
  sl_new bp0 pc0 delta0 = Some (even_p prm) -> sl_new bp1 pc1 delta1 = Some (odd_p prm) -> sw_a P0 = 0 -> sw_a P1 = 0 ->
  from_set fuel L M prm set height = TOk t -> (N.of_nat (L ^ t_height t) < 2 ^ 64)%N -> (0 < M)%nat -> t_height t <> 0%nat ->
  nth_error set i = Some leaf -> tree_witness oc L t (N.of_nat i) 0 prm = Some (evens, odds) ->
  (forall k w, nth_error evens k = Some w -> admissible (odd_p prm) (w_child w) (os k)) -> (forall k w, nth_error odds k = Some w -> admissible (even_p prm) (w_child w) (es k)) ->
  exists s0' s1' (t0' : VState P0) (t1' : VState P1) p r,
    tree_prove E0 E1 enc0 enc1 oc L t (N.of_nat i) 0 pc0 pc1 prm os es (p_new tr0) (p_new tr1) = Some (s0', s1', (p, r)) /\
    (forall dbg, sr_verify E0 E1 enc0 enc1 dbg L prm t p (v_new tr0) (v_new tr1) = Some (t0', t1', vadd leaf (vsmul r (pcB_blinding pc0)))) /\
    session E0 pc0 bp0 tr0 s0' t0' /\ session E1 pc1 bp1 tr1 s1' t1' /\ honest s0' /\ honest s1' /\ p_def s0' = [] /\ p_def s1' = [].
Proof.
  intros Hsl0 Hsl1 Ha0 Ha1 Ht Hc HM Hh Hleaf Hw Aos Aes.
  destruct (sl_new_good _ _ _ _ Hsl0) as (Hg0 & Eb0 & Ep0 & _), (sl_new_good _ _ _ _ Hsl1) as (Hg1 & Eb1 & Ep1 & _).
  destruct (tree_prove_opens L M prm set fuel height t oc (N.of_nat i) 0 evens odds Ht Hc HM Hw) as (leaf' & root & Hleaf' & Hr & Ho).
  assert (leaf' = leaf) as ->.
  { destruct (from_set_ok _ _ _ _ _ _ _ Ht) as (HL & d & Hd & _). rewrite (tree_ok_height _ _ _ _ _ _ Hd) in *. assert (Hi : (i < length set)%nat) by (apply nth_error_Some; rewrite Hleaf; discriminate).
    rewrite (index_small L d set i Hi (proj2 (tree_ok_le _ _ _ _ _ _ HL Hd))) in Hleaf'. congruence. }
  rewrite <- Eb0, <- Ep0 in *. rewrite <- Eb1, <- Ep1 in *.
  destruct (sr_total E0 E1 enc0 enc1 L prm root (t_height t) evens odds leaf os es (p_new tr0) (p_new tr1) Hg0 Hg1 Ha0 Ha1 Ho Aos Aes (honest_new _) (honest_new _)) as (s0' & s1' & p & r & Hp & Hh0' & Hh1' & _ & _ & Hd0' & Hd1').
  assert (K : forall dbg, exists (t0' : VState P0) (t1' : VState P1), sr_verify E0 E1 enc0 enc1 dbg L prm t p (v_new tr0) (v_new tr1) = Some (t0', t1', pa_selected p) /\
      session E0 (sl_pc (even_p prm)) (sl_bp (even_p prm)) tr0 s0' t0' /\ session E1 (sl_pc (odd_p prm)) (sl_bp (odd_p prm)) tr1 s1' t1' /\ pa_selected p = vadd leaf (vsmul r (pcB_blinding (sl_pc (even_p prm))))).
  { intros dbg. exact (sr_lockstep E0 E1 enc0 enc1 dbg L prm t root (t_height t) evens odds leaf os es tr0 tr1 _ _ _ _ s0' s1' p r Hg0 Hg1 Hr Ho Hh (tree_witness_root _ _ _ _ _ _ _ _ Hw Hh) ltac:(reflexivity) (ses_new _ _ _ _) (ses_new _ _ _ _) Hp). }
  destruct (K true) as (t0' & t1' & Hv & S0 & S1 & Hsel). exists s0', s1', t0', t1', p, r. unfold tree_prove. rewrite Hw. cbn [opt_bind fst snd]. split; [exact Hp|].
  split; [|split; [exact S0|]; split; [exact S1|]; split; [exact Hh0'|]; split; [exact Hh1'|]; split; [exact Hd0'|exact Hd1']].
  intros [|]; [rewrite <- Hsel; exact Hv|]. destruct (K false) as (a & b & Hv2 & _). rewrite <- Hsel. unfold sr_verify in *. destruct (verification_commitments t p) as [p'|]; [|discriminate]. cbn [opt_bind andb] in *. destruct (negb _); [discriminate|exact Hv].
Qed.

(** For every position of the set the prover builds both circuits, and a proof is returned
    exactly if there are as many generators as the next power of two of the size; the
    verifier accepts it (if no validated point is the identity). *)
Theorem C70_path_capacity : forall (F0 F1 : PField) (P0 : SWCurve F1 F0) (P1 : SWCurve F0 F1) (E0 : TrEnv P0) (E1 : TrEnv P1) (enc0 : P0 -> bytes) (enc1 : P1 -> bytes)
    bp0 pc0 delta0 bp1 pc1 delta1 (prm : SRParams P0 P1) (L M : nat) (set : list P0) fuel height t oc i leaf evens odds os es tr0 tr1,
  sl_new bp0 pc0 delta0 = Some (even_p prm) -> sl_new bp1 pc1 delta1 = Some (odd_p prm) -> sw_a P0 = 0 -> sw_a P1 = 0 ->
  gens_wf bp0 -> gens_wf bp1 -> (gens_capacity bp0 < 2 ^ 32)%nat -> (gens_capacity bp1 < 2 ^ 32)%nat -> good_challenges E0 -> good_challenges E1 ->
  from_set fuel L M prm set height = TOk t -> (N.of_nat (L ^ t_height t) < 2 ^ 64)%N -> (0 < M)%nat -> (1 <= t_height t <= 35)%nat ->
  nth_error set i = Some leaf -> tree_witness oc L t (N.of_nat i) 0 prm = Some (evens, odds) ->
  (forall k w, nth_error evens k = Some w -> admissible (odd_p prm) (w_child w) (os k)) -> (forall k w, nth_error odds k = Some w -> admissible (even_p prm) (w_child w) (es k)) ->
  let need0 := next_power_of_two (levels_size (t_height t / 2) L (windows (S := F1))) in
  let need1 := next_power_of_two (levels_size ((t_height t + 1) / 2) L (windows (S := F0))) in
  exists s0' s1' (t0' : VState P0) (t1' : VState P1) p r,
    tree_prove E0 E1 enc0 enc1 oc L t (N.of_nat i) 0 pc0 pc1 prm os es (p_new tr0) (p_new tr1) = Some (s0', s1', (p, r)) /\
    (forall dbg, sr_verify E0 E1 enc0 enc1 dbg L prm t p (v_new tr0) (v_new tr1) = Some (t0', t1', vadd leaf (vsmul r (pcB_blinding pc0)))) /\
    (forall dbg rnd, (need0 <= gens_capacity bp0)%nat -> exists pf trf, r1cs_prove E0 dbg rnd pc0 bp0 s0' = Some (Ok (pf, trf)) /\
       (Forall (fun P => P <> v0) (validated_points (op_degree_of (length (p_vec s0'))) pf) -> forall dbg1 rr, r1cs_verify E0 dbg1 rr pf pc0 bp0 t0' = Some (Ok tt))) /\
    (forall dbg rnd, (gens_capacity bp0 < need0)%nat -> r1cs_prove E0 dbg rnd pc0 bp0 s0' = Some (Err InvalidGeneratorsLength)) /\
    (forall dbg rnd, (need1 <= gens_capacity bp1)%nat -> exists pf trf, r1cs_prove E1 dbg rnd pc1 bp1 s1' = Some (Ok (pf, trf)) /\
       (Forall (fun P => P <> v0) (validated_points (op_degree_of (length (p_vec s1'))) pf) -> forall dbg1 rr, r1cs_verify E1 dbg1 rr pf pc1 bp1 t1' = Some (Ok tt))) /\
    (forall dbg rnd, (gens_capacity bp1 < need1)%nat -> r1cs_prove E1 dbg rnd pc1 bp1 s1' = Some (Err InvalidGeneratorsLength)).
Proof.
  intros F0 F1 P0 P1 E0 E1 enc0 enc1 bp0 pc0 delta0 bp1 pc1 delta1 prm L M set fuel height t oc i leaf evens odds os es tr0 tr1 Hsl0 Hsl1 Ha0 Ha1 W0 W1 B0 B1 G0 G1 Ht Hc HM Hh Hleaf Hw Aos Aes need0 need1.
  destruct (path_run E0 E1 enc0 enc1 bp0 pc0 delta0 bp1 pc1 delta1 prm L M set fuel height t oc i leaf evens odds os es tr0 tr1 Hsl0 Hsl1 Ha0 Ha1 Ht Hc HM ltac:(lia) Hleaf Hw Aos Aes) as (s0' & s1' & t0' & t1' & p & r & Hp & Hv & S0 & S1 & H0 & H1 & D0 & D1).
  destruct (C70_path_size _ _ P0 P1 E0 E1 enc0 enc1 bp0 pc0 delta0 bp1 pc1 delta1 prm L M set fuel height t true tr0 tr1 t0' t1' p _ Hsl0 Hsl1 Ht (Hv true) ltac:(left; reflexivity)) as (Z0 & V0 & Z1 & V1).
  assert (K0 : ((t_height t - 1) / 2 <= 17)%nat) by (apply (Nat.div_le_mono _ 35 2); lia). assert (K1 : (t_height t / 2 <= 17)%nat) by (apply (Nat.div_le_mono _ 35 2); lia).
  rewrite <- V0, <- (map_length snd) in K0. rewrite <- V1, <- (map_length snd) in K1.
  exists s0', s1', t0', t1', p, r. split; [exact Hp|]. split; [exact Hv|].
  split; [|split; [|split]]; intros dbg rnd Hcap.
  - destruct (proj1 (capacity_exact E0 pc0 bp0 dbg rnd tr0 s0' t0' _ S0 H0 D0 W0 G0 K0 Z0) Hcap) as (pf & trf & Hpf). exists pf, trf. split; [exact Hpf|]. intros Hnz dbg1 rr. eapply C08_complete; try eassumption. apply honest_satisfies, H0.
  - exact (proj2 (capacity_exact E0 pc0 bp0 dbg rnd tr0 s0' t0' _ S0 H0 D0 W0 G0 K0 Z0) Hcap).
  - destruct (proj1 (capacity_exact E1 pc1 bp1 dbg rnd tr1 s1' t1' _ S1 H1 D1 W1 G1 K1 Z1) Hcap) as (pf & trf & Hpf). exists pf, trf. split; [exact Hpf|]. intros Hnz dbg1 rr. eapply C08_complete; try eassumption. apply honest_satisfies, H1.
  - exact (proj2 (capacity_exact E1 pc1 bp1 dbg rnd tr1 s1' t1' _ S1 H1 D1 W1 G1 K1 Z1) Hcap).
Qed.
Print Assumptions C70_path_capacity.

(** From height 36 on there are 18 vector commitments on the odd side: the prover panics
    however many generators there are. *)
Theorem C70_path_too_high : forall (F0 F1 : PField) (P0 : SWCurve F1 F0) (P1 : SWCurve F0 F1) (E0 : TrEnv P0) (E1 : TrEnv P1) (enc0 : P0 -> bytes) (enc1 : P1 -> bytes)
    bp0 pc0 delta0 bp1 pc1 delta1 (prm : SRParams P0 P1) (L M : nat) (set : list P0) fuel height t oc i leaf evens odds os es tr0 tr1,
  sl_new bp0 pc0 delta0 = Some (even_p prm) -> sl_new bp1 pc1 delta1 = Some (odd_p prm) -> sw_a P0 = 0 -> sw_a P1 = 0 ->
  from_set fuel L M prm set height = TOk t -> (N.of_nat (L ^ t_height t) < 2 ^ 64)%N -> (0 < M)%nat -> (36 <= t_height t)%nat ->
  nth_error set i = Some leaf -> tree_witness oc L t (N.of_nat i) 0 prm = Some (evens, odds) ->
  (forall k w, nth_error evens k = Some w -> admissible (odd_p prm) (w_child w) (os k)) -> (forall k w, nth_error odds k = Some w -> admissible (even_p prm) (w_child w) (es k)) ->
  (next_power_of_two (levels_size ((t_height t + 1) / 2) L (windows (S := F0))) <= gens_capacity bp1)%nat ->
  exists s0' s1' p r,
    tree_prove E0 E1 enc0 enc1 oc L t (N.of_nat i) 0 pc0 pc1 prm os es (p_new tr0) (p_new tr1) = Some (s0', s1', (p, r)) /\
    forall dbg rnd, r1cs_prove E1 dbg rnd pc1 bp1 s1' = None.
Proof.
  intros F0 F1 P0 P1 E0 E1 enc0 enc1 bp0 pc0 delta0 bp1 pc1 delta1 prm L M set fuel height t oc i leaf evens odds os es tr0 tr1 Hsl0 Hsl1 Ha0 Ha1 Ht Hc HM Hh Hleaf Hw Aos Aes Hcap.
  destruct (path_run E0 E1 enc0 enc1 bp0 pc0 delta0 bp1 pc1 delta1 prm L M set fuel height t oc i leaf evens odds os es tr0 tr1 Hsl0 Hsl1 Ha0 Ha1 Ht Hc HM ltac:(lia) Hleaf Hw Aos Aes) as (s0' & s1' & t0' & t1' & p & r & Hp & Hv & S0 & S1 & H0 & H1 & D0 & D1).
  destruct (C70_path_size _ _ P0 P1 E0 E1 enc0 enc1 bp0 pc0 delta0 bp1 pc1 delta1 prm L M set fuel height t true tr0 tr1 t0' t1' p _ Hsl0 Hsl1 Ht (Hv true) ltac:(left; reflexivity)) as (Z0 & V0 & Z1 & V1).
  exists s0', s1', p, r. split; [exact Hp|]. intros dbg rnd. destruct (session_size _ _ _ _ _ _ S1) as [Es El].
  apply (C18_eighteen_panics _ P1 E1 pc1 bp1 tr1 s1' t1' dbg rnd S1 D1); [rewrite Es, Z1; exact Hcap|]. rewrite El. unfold dims. rewrite map_length, V1. apply (Nat.div_le_mono 36 _ 2); lia.
Qed.
Print Assumptions C70_path_too_high.

(** ** Batched paths *)
Theorem C70_batched_size : forall (F0 F1 : PField) (P0 : SWCurve F1 F0) (P1 : SWCurve F0 F1) (E0 : TrEnv P0) (E1 : TrEnv P1) (enc0 : P0 -> bytes)
    bp0 pc0 delta0 bp1 pc1 delta1 (prm : SRParams P0 P1) (L M : nat) (set : list P0) fuel height t dbg tr0 tr1 (t0' : VState P0) (t1' : VState P1) (p : MPath P0 P1) sel,
  sl_new bp0 pc0 delta0 = Some (even_p prm) -> sl_new bp1 pc1 delta1 = Some (odd_p prm) -> from_set fuel L M prm set height = TOk t ->
  msr_verify E0 E1 enc0 dbg L M prm t p (v_new tr0) (v_new tr1) = Some (t0', t1', sel) -> t_height t <> 0%nat ->
  (dbg = true \/ length (mp_even p) + length (mp_odd p) + 1 = t_height t)%nat ->
  v_size t0' = batch_size (t_height t / 2) M L (windows (S := F1)) false /\ length (v_vec t0') = ((t_height t - 1) / 2)%nat /\
  v_size t1' = batch_size ((t_height t + 1) / 2 - 1) M L (windows (S := F0)) true /\ length (v_vec t1') = (t_height t / 2)%nat.
Proof.
  intros F0 F1 P0 P1 E0 E1 enc0 bp0 pc0 delta0 bp1 pc1 delta1 prm L M set fuel height t dbg tr0 tr1 t0' t1' p sel H0 H1 Ht Hv Hh Hl.
  pose proof (proj1 (from_set_ok _ _ _ _ _ _ _ Ht)) as HL. pose proof (sl_new_countable _ _ _ _ H0) as C0. pose proof (sl_new_countable _ _ _ _ H1) as C1.
  unfold msr_verify in Hv. destruct (m_verification_commitments M t p) as [p'|] eqn:Ep; [|discriminate]. cbn [opt_bind] in Hv.
  assert (Hl' : (length (mp_even p) + length (mp_odd p) + 1 = t_height t)%nat).
  { destruct Hl as [->|Hl]; [|exact Hl]. unfold m_verification_commitments in Ep. destruct t as [ct|ct]; unfold guard in Ep; destruct (_ =? _)%nat; try discriminate Ep; destruct (sum_roots M ct) as [c|]; try discriminate Ep; cbn [opt_bind] in Ep; apply Some_inj in Ep; subst p';
    cbn [mp_even mp_odd andb length] in Hv; match type of Hv with (if negb (?a =? ?b)%nat then _ else _) = _ => destruct (Nat.eqb_spec a b) as [E|]; [|discriminate Hv] end; rewrite E; lia. }
  destruct (m_completed_counts _ _ _ _ _ Ep Hl') as (Ee & Eo & Er). destruct (dbg && _)%bool; [discriminate|]. rewrite Er in Hv. cbn [opt_bind] in Hv.
  destruct (m_even_vlevels L M prm t p' (Nat.odd (t_height t))) as [lv0|] eqn:L0; [|discriminate]. cbn [opt_bind] in Hv. destruct (verify_levels E0 (v_new tr0) lv0) as [a|] eqn:Ea; [|discriminate]. cbn [opt_bind] in Hv.
  destruct (m_odd_vlevels enc0 L M prm t p' (Nat.odd (t_height t))) as [lv1|] eqn:L1; [|discriminate]. cbn [opt_bind] in Hv. destruct (verify_levels E1 (v_new tr1) lv1) as [b|] eqn:Eb; [|discriminate]. cbn [opt_bind] in Hv.
  apply Some_inj in Hv. injection Hv as <- <- _.
  assert (Hpos : (1 <= (t_height t + 1) / 2)%nat) by (apply (Nat.div_le_mono 2 _ 2); lia).
  pose proof (m_even_size E0 _ _ _ _ _ _ _ _ _ HL C1 L0 Ea) as N0. pose proof (m_even_dims E0 _ _ _ _ _ _ _ _ _ L0 Ea) as D0.
  pose proof (m_odd_size E1 enc0 _ _ _ _ _ _ _ _ _ HL C0 L1 Eb ltac:(intros E; rewrite E in Eo; cbn [length] in Eo; lia)) as N1. pose proof (m_odd_dims E1 enc0 _ _ _ _ _ _ _ _ _ L1 Eb) as D1.
  apply fresh_num in N0. apply fresh_num in N1. rewrite Ee in *. rewrite Eo in *. rewrite (proj1 (pred_count _)) in D0. rewrite (proj2 (pred_count _)) in D1. change (dims (v_new ?x)) with (@nil nat) in D0, D1. cbn [app] in D0, D1.
  assert (Q0 : v_num a = batch_size (t_height t / 2) M L (windows (S := F1)) false) by (rewrite N0; unfold batch_size, batched_halves; rewrite Nat.add_0_r; reflexivity).
  assert (Q1 : v_num b = batch_size ((t_height t + 1) / 2 - 1) M L (windows (S := F0)) true) by (rewrite N1; reflexivity).
  destruct C0 as [_ w0], C1 as [_ w1].
  split; [|split; [|split]].
  - rewrite <- Q0. apply dims_size. rewrite D0. eapply repeat_below; [|reflexivity]. destruct (t_height t / 2)%nat as [|k] eqn:Ek; [left; pose proof (Nat.div_le_mono (t_height t - 1) (t_height t) 2 ltac:(lia) ltac:(lia)); lia|right].
    rewrite Q0. apply batch_wide; [exact w1|left; lia].
  - rewrite <- (map_length snd). fold (dims a). rewrite D0, repeat_length. reflexivity.
  - rewrite <- Q1. apply dims_size. rewrite D1. eapply repeat_below; [|reflexivity]. right. rewrite Q1. apply batch_wide; [exact w0|right; reflexivity].
  - rewrite <- (map_length snd). fold (dims b). rewrite D1, repeat_length. reflexivity.
Qed.
Print Assumptions C70_batched_size.

Theorem C70_batched_capacity : forall (F0 F1 : PField) (P0 : SWCurve F1 F0) (P1 : SWCurve F0 F1) (E0 : TrEnv P0) (E1 : TrEnv P1) (enc0 : P0 -> bytes)
    bp0 pc0 delta0 bp1 pc1 delta1 (prm : SRParams P0 P1) (L : nat) (set : list P0) fuel height t oc indices evens odds os es ls tr0 tr1,
  sl_new bp0 pc0 delta0 = Some (even_p prm) -> sl_new bp1 pc1 delta1 = Some (odd_p prm) -> sw_a P0 = 0 -> sw_a P1 = 0 ->
  gens_wf bp0 -> gens_wf bp1 -> (gens_capacity bp0 < 2 ^ 32)%nat -> (gens_capacity bp1 < 2 ^ 32)%nat -> good_challenges E0 -> good_challenges E1 ->
  from_set fuel L (length indices) prm set height = TOk t -> (N.of_nat (L ^ t_height t) < 2 ^ 64)%N -> (1 <= t_height t <= 35)%nat ->
  multi_witness oc L t indices prm = Some (evens, odds) ->
  (forall i nd, nth_error evens i = Some nd -> badmissible (odd_p prm) (map w_child nd) (os i)) ->
  (forall i nd, nth_error (removelast odds) i = Some nd -> badmissible (even_p prm) (map w_child nd) (es i)) ->
  (forall j w, nth_error (last odds []) j = Some w -> admissible (even_p prm) (w_child w) (ls j)) ->
  let M := length indices in
  let need0 := next_power_of_two (batch_size (t_height t / 2) M L (windows (S := F1)) false) in
  let need1 := next_power_of_two (batch_size ((t_height t + 1) / 2 - 1) M L (windows (S := F0)) true) in
  exists s0' s1' (t0' : VState P0) (t1' : VState P1) p rs sel,
    mtree_prove E0 E1 enc0 oc L t indices pc0 pc1 prm os es ls (p_new tr0) (p_new tr1) = Some (s0', s1', (p, rs)) /\
    msr_verify E0 E1 enc0 true L M prm t p (v_new tr0) (v_new tr1) = Some (t0', t1', sel) /\
    (forall dbg rnd, (need0 <= gens_capacity bp0)%nat -> exists pf trf, r1cs_prove E0 dbg rnd pc0 bp0 s0' = Some (Ok (pf, trf)) /\
       (Forall (fun P => P <> v0) (validated_points (op_degree_of (length (p_vec s0'))) pf) -> forall dbg1 rr, r1cs_verify E0 dbg1 rr pf pc0 bp0 t0' = Some (Ok tt))) /\
    (forall dbg rnd, (gens_capacity bp0 < need0)%nat -> r1cs_prove E0 dbg rnd pc0 bp0 s0' = Some (Err InvalidGeneratorsLength)) /\
    (forall dbg rnd, (need1 <= gens_capacity bp1)%nat -> exists pf trf, r1cs_prove E1 dbg rnd pc1 bp1 s1' = Some (Ok (pf, trf)) /\
       (Forall (fun P => P <> v0) (validated_points (op_degree_of (length (p_vec s1'))) pf) -> forall dbg1 rr, r1cs_verify E1 dbg1 rr pf pc1 bp1 t1' = Some (Ok tt))) /\
    (forall dbg rnd, (gens_capacity bp1 < need1)%nat -> r1cs_prove E1 dbg rnd pc1 bp1 s1' = Some (Err InvalidGeneratorsLength)).
Proof.
  intros F0 F1 P0 P1 E0 E1 enc0 bp0 pc0 delta0 bp1 pc1 delta1 prm L set fuel height t oc indices evens odds os es ls tr0 tr1 Hsl0 Hsl1 Ha0 Ha1 W0 W1 B0 B1 G0 G1 Ht Hc Hh Hw Aos Aes Als M need0 need1. subst M.
  destruct (sl_new_good _ _ _ _ Hsl0) as (Hg0 & Eb0 & Ep0 & _), (sl_new_good _ _ _ _ Hsl1) as (Hg1 & Eb1 & Ep1 & _). assert (Hh' : t_height t <> 0%nat) by lia.
  destruct (multi_witness_paths L prm set fuel height t oc indices evens odds Ht Hc Hh' Hw) as (ws & leaves & n & m & Hl & Hne & Hok & Hlv & T1 & T2 & Hn & Hm & Hpar).
  pose proof (proj1 (from_set_ok _ _ _ _ _ _ _ Ht)) as HL.
  destruct (msr_total E0 E1 enc0 L prm t (t_height t) ws leaves n m evens odds os es ls (p_new tr0) (p_new tr1) HL Hg0 Hg1 Ha0 Ha1 Hne Hok Hh' T1 T2 Hn Hm Hpar Aos Aes Als (honest_new _) (honest_new _)) as (s0' & s1' & p & rs & Hp & H0 & H1 & _ & _ & D0 & D1).
  destruct (msr_lockstep E0 E1 enc0 true L prm t (t_height t) ws leaves n m evens odds os es ls tr0 tr1 _ _ _ _ s0' s1' p rs
    HL Hg0 Hg1 Hne Hok Hh' T1 T2 Hn Hm Hpar ltac:(reflexivity) (ses_new _ _ _ _) (ses_new _ _ _ _) Hp) as (t0' & t1' & Hv & S0 & S1 & _).
  rewrite Hl in Hp, Hv. rewrite Ep0, Ep1 in Hp. rewrite Eb0, Ep0 in S0. rewrite Eb1, Ep1 in S1.
  destruct (C70_batched_size _ _ P0 P1 E0 E1 enc0 bp0 pc0 delta0 bp1 pc1 delta1 prm L (length indices) set fuel height t true tr0 tr1 t0' t1' p _ Hsl0 Hsl1 Ht Hv Hh' ltac:(left; reflexivity)) as (Z0 & V0 & Z1 & V1).
  assert (K0 : ((t_height t - 1) / 2 <= 17)%nat) by (apply (Nat.div_le_mono _ 35 2); lia). assert (K1 : (t_height t / 2 <= 17)%nat) by (apply (Nat.div_le_mono _ 35 2); lia).
  rewrite <- V0, <- (map_length snd) in K0. rewrite <- V1, <- (map_length snd) in K1.
  exists s0', s1', t0', t1', p, rs, (mp_selected p). unfold mtree_prove. rewrite Hw. cbn [opt_bind fst snd]. split; [exact Hp|]. split; [exact Hv|].
  split; [|split; [|split]]; intros dbg rnd Hcap.
  - destruct (proj1 (capacity_exact E0 pc0 bp0 dbg rnd tr0 s0' t0' _ S0 H0 D0 W0 G0 K0 Z0) Hcap) as (pf & trf & Hpf). exists pf, trf. split; [exact Hpf|]. intros Hnz dbg1 rr. eapply C08_complete; try eassumption. apply honest_satisfies, H0.
  - exact (proj2 (capacity_exact E0 pc0 bp0 dbg rnd tr0 s0' t0' _ S0 H0 D0 W0 G0 K0 Z0) Hcap).
  - destruct (proj1 (capacity_exact E1 pc1 bp1 dbg rnd tr1 s1' t1' _ S1 H1 D1 W1 G1 K1 Z1) Hcap) as (pf & trf & Hpf). exists pf, trf. split; [exact Hpf|]. intros Hnz dbg1 rr. eapply C08_complete; try eassumption. apply honest_satisfies, H1.
  - exact (proj2 (capacity_exact E1 pc1 bp1 dbg rnd tr1 s1' t1' _ S1 H1 D1 W1 G1 K1 Z1) Hcap).
Qed.
Print Assumptions C70_batched_capacity.

(** ** Pours *)
(** two mints of 64 multipliers each and two spent coins (no code modelled) *)
Definition pour_size (h L w : nat) : nat := 128 + h / 2 * (2 * L + 21 * w + 12).
Section PourSize.
  Context {F0 F1 : PField} {P0 : SWCurve F1 F0} {P1 : SWCurve F0 F1} {FC : Field} {C : VSpace FC}.
  Variables (E0 : TrEnv P0) (E1 : TrEnv P1) (enc0 : P0 -> bytes) (enc1 : P1 -> bytes) (sg : SigScheme FC C) (enc_pk : C -> bytes) (enc_sc : FC -> bytes) (sha3 : bytes -> bytes).
  Lemma commit_dims (t t1 : VState P0) d c us : v_commit_vec E0 t d c = (t1, us) -> v_num t1 = v_num t /\ v_pend t1 = v_pend t /\ dims t1 = dims t ++ [d].
  Proof. unfold v_commit_vec. intros H. injection H as <- _. cbn. unfold dims. cbn. rewrite map_app. auto. Qed.
  Lemma range_uses dbg v n (t t' : VState P0) r : vrun E0 (range_proof dbg v None n) t = Some (t', r) -> (2 * v_num t' + spare t = 2 * v_num t + spare t' + 2 * n)%nat.
  Proof. apply vrun_uses. apply uses_range. Qed.
  Lemma mint_cost dbg c (t t' : VState P0) v : verify_mint E0 dbg c t = Some (t', v) -> (2 * v_num t' + spare t = 2 * v_num t + spare t' + 128)%nat /\ dims t' = dims t ++ [2%nat].
  Proof.
    unfold verify_mint. destruct (v_commit_vec E0 t 2 c) as [t1 us] eqn:Ec. destruct (commit_dims _ _ _ _ _ Ec) as (N1 & N2 & N3).
    destruct (nth_error us 0) as [v'|]; [|discriminate]. cbn [opt_bind]. destruct (vrun E0 _ t1) as [[t2 res]|] eqn:R; [|discriminate]. cbn [opt_bind]. destruct res; [|discriminate]. intros H. apply Some_inj in H. injection H as <- _.
    split; [|rewrite (vrun_dims _ _ _ _ _ R); exact N3]. apply range_uses in R. change (2 * 64)%nat with 128%nat in R. unfold spare in *. rewrite N1, N2 in R. lia.
  Qed.
  Lemma spend_cost d L prm (t : CurveTree P0 P1) pk p (t0 t0' : VState P0) v o : root_width L t -> countable (odd_p prm) -> root_is_odd p = Some o -> spend_dim E0 enc1 enc_pk sha3 d L prm t pk p t0 = Some (t0', v) ->
    (2 * v_num t0' + spare t0 = 2 * v_num t0 + spare t0' + length (pa_even p) * level_halves L (windows (S := F1)))%nat /\
    dims t0' = dims t0 ++ repeat L (if o then length (pa_even p) else length (pa_even p) - 1)%nat ++ [d].
  Proof.
    intros Hw Hc Ho. unfold spend_dim. destruct (even_gadget E0 enc1 L prm t p t0) as [te|] eqn:Eg; [|discriminate]. cbn [opt_bind]. pose proof (even_gadget_size E0 enc1 _ _ _ _ _ _ Hw Hc Eg) as N. pose proof (even_gadget_dims E0 enc1 _ _ _ _ _ _ _ Ho Eg) as D.
    destruct (v_commit_vec E0 te d (pa_selected p)) as [t1 us] eqn:Ec. destruct (commit_dims _ _ _ _ _ Ec) as (N1 & N2 & N3).
    destruct (nth_error us 1) as [v1|]; [|discriminate]. cbn [opt_bind]. destruct (nth_error us 0) as [v2|]; [|discriminate]. cbn [opt_bind]. intros H. apply Some_inj in H. injection H as <- _. split.
    - unfold spare in *. cbn [v_constrain v_num v_pend]. rewrite N1, N2. exact N.
    - unfold dims in *. cbn [v_constrain v_vec]. rewrite N3, D, <- app_assoc. reflexivity.
  Qed.

  Lemma pour_run dbg oc L M prm set fuel height t i0 i1 m0 m1 tr0 tr1 s0 s1 (t0 : VState P0) (t1 : VState P1) s0' s1' p0 p1 c0 c1 :
    sl_good (even_p prm) -> sl_good (odd_p prm) ->
    from_set fuel L M prm set height = TOk t -> (N.of_nat (L ^ t_height t) < 2 ^ 64)%N -> (0 < M)%nat -> t_height t <> 0%nat ->
    co_tag (sp_coin i0) = pk_to_scalar enc_pk sha3 (sp_pk i0) -> co_tag (sp_coin i1) = pk_to_scalar enc_pk sha3 (sp_pk i1) ->
    session E0 (sl_pc (even_p prm)) (sl_bp (even_p prm)) tr0 s0 t0 -> session E1 (sl_pc (odd_p prm)) (sl_bp (odd_p prm)) tr1 s1 t1 ->
    pour_circuits E0 E1 enc0 enc1 sg enc_pk enc_sc sha3 dbg oc L (sl_pc (even_p prm)) (sl_pc (odd_p prm)) prm t i0 i1 m0 m1 s0 s1 = Some (s0', s1', (p0, p1, c0, c1)) ->
    exists p0' p1' t0' t1', verification_commitments t p0 = Some p0' /\ verification_commitments t p1 = Some p1' /\ (length (pa_even p0') + length (pa_odd p0') = t_height t)%nat /\ (length (pa_even p1') + length (pa_odd p1') = t_height t)%nat /\
      pour_dim E0 enc1 enc_pk sha3 2 dbg L prm t c0 c1 (sp_pk i0) (sp_pk i1) p0' p1' t0 = Some t0' /\
      pour_odd_circuit E1 enc0 L prm t p0' p1' t1 = Some t1' /\
      session E0 (sl_pc (even_p prm)) (sl_bp (even_p prm)) tr0 s0' t0' /\ session E1 (sl_pc (odd_p prm)) (sl_bp (odd_p prm)) tr1 s1' t1'.
  Proof.
    intros Hg0 Hg1 Ht Hc HM Hh T0 T1 Hs0 Hs1. unfold Coin.pour_circuits, mint_of, spend_of, pour_dim, pour_odd_circuit.
    destruct (coin_mint _ _ _ _ _ _ _ _ (mi_value m0) _ _ _ s0) as [[u1 [[x0 c0'] v1]]|] eqn:R1; [|discriminate]. cbn [opt_bind].
    destruct (mint_lockstep _ _ _ _ _ _ _ _ _ _ _ _ _ _ _ _ _ _ Hs0 R1) as (t2 & V2 & Hs2).
    destruct (coin_mint _ _ _ _ _ _ _ _ (mi_value m1) _ _ _ u1) as [[u2 [[x1 c1'] v2]]|] eqn:R2; [|discriminate]. cbn [opt_bind].
    destruct (mint_lockstep _ _ _ _ _ _ _ _ _ _ _ _ _ _ _ _ _ _ Hs2 R2) as (t3 & V3 & Hs3).
    destruct (prove_spend _ _ _ _ oc L (sp_coin i0) (sp_index i0) _ _ _ _ _ _ u2 s1) as [[[u3 w3] [q0 v3]]|] eqn:R3; [|discriminate]. cbn [opt_bind].
    destruct (spend_lockstep E0 E1 enc0 enc1 enc_pk sha3 oc L M prm set fuel height t _ _ _ _ _ _ _ _ _ _ _ _ _ _ _ Hg0 Hg1 Ht Hc HM Hh T0 Hs3 Hs1 R3) as (p0' & t4 & y4 & Hp0 & V4 & O4 & L4 & Hs4 & Hy4).
    destruct (prove_spend _ _ _ _ oc L (sp_coin i1) (sp_index i1) _ _ _ _ _ _ u3 w3) as [[[u4 w4] [q1 v4]]|] eqn:R4; [|discriminate]. cbn [opt_bind].
    destruct (spend_lockstep E0 E1 enc0 enc1 enc_pk sha3 oc L M prm set fuel height t _ _ _ _ _ _ _ _ _ _ _ _ _ _ _ Hg0 Hg1 Ht Hc HM Hh T1 Hs4 Hy4 R4) as (p1' & t5 & y5 & Hp1 & V5 & O5 & L5 & Hs5 & Hy5).
    intros H. apply Some_inj in H. injection H as <- <- <- <- <- <-.
    eexists p0', p1', _, y5. split; [exact Hp0|]. split; [exact Hp1|]. split; [exact L4|]. split; [exact L5|]. rewrite V2. cbn [opt_bind]. rewrite V3. cbn [opt_bind]. rewrite V4. cbn [opt_bind]. rewrite V5. cbn [opt_bind]. split; [reflexivity|].
    rewrite O4. cbn [opt_bind]. split; [exact O5|]. split; [apply constrain_session; exact Hs5|exact Hy5].
  Qed.
  Lemma completed_length (t : CurveTree P0 P1) p p' : verification_commitments t p = Some p' -> (length (pa_even p') + length (pa_odd p') = length (pa_even p) + length (pa_odd p) + 1)%nat.
  Proof. unfold verification_commitments, guard. destruct t; destruct (_ =? _)%nat; try discriminate; destruct (n_commitment _ 0); try discriminate; cbn [opt_bind]; intros H; apply Some_inj in H; subst p'; cbn; lia. Qed.

  Lemma pour_even_size d dbg L prm (t : CurveTree P0 P1) c0 c1 pk0 pk1 p0 p1 p0' p1' h tr t0' : root_width L t -> countable (odd_p prm) -> (d <= 128)%nat \/ (d <= L /\ 2 <= h)%nat -> verification_commitments t p0 = Some p0' -> verification_commitments t p1 = Some p1' ->
    (length (pa_even p0') + length (pa_odd p0') = h)%nat -> (length (pa_even p1') + length (pa_odd p1') = h)%nat -> pour_dim E0 enc1 enc_pk sha3 d dbg L prm t c0 c1 pk0 pk1 p0' p1' (v_new tr) = Some t0' ->
    v_size t0' = pour_size h L (windows (S := F1)) /\ dims t0' = [2; 2]%nat ++ repeat L ((h - 1) / 2) ++ [d] ++ repeat L ((h - 1) / 2) ++ [d].
  Proof.
    intros Hw Hc Hd Hp0 Hp1 L0 L1. rewrite (completed_length _ _ _ Hp0) in L0. rewrite (completed_length _ _ _ Hp1) in L1.
    destruct (completed_counts _ _ _ _ Hp0 L0) as (Ee0 & _ & Er0), (completed_counts _ _ _ _ Hp1 L1) as (Ee1 & _ & Er1). unfold pour_dim.
    destruct (verify_mint E0 dbg c0 _) as [[a v1]|] eqn:R1; [|discriminate]. cbn [opt_bind]. destruct (verify_mint E0 dbg c1 _) as [[b v2]|] eqn:R2; [|discriminate]. cbn [opt_bind].
    destruct (spend_dim E0 enc1 enc_pk sha3 d L prm t pk0 p0' b) as [[c v3]|] eqn:R3; [|discriminate]. cbn [opt_bind]. destruct (spend_dim E0 enc1 enc_pk sha3 d L prm t pk1 p1' c) as [[e v4]|] eqn:R4; [|discriminate]. cbn [opt_bind].
    intros H. apply Some_inj in H. subst t0'. destruct (mint_cost _ _ _ _ _ R1) as [N1 D1], (mint_cost _ _ _ _ _ R2) as [N2 D2], (spend_cost _ _ _ _ _ _ _ _ _ _ Hw Hc Er0 R3) as [N3 D3], (spend_cost _ _ _ _ _ _ _ _ _ _ Hw Hc Er1 R4) as [N4 D4].
    rewrite Ee0 in *. rewrite Ee1 in *. rewrite (proj1 (pred_count h)) in *. unfold level_halves in *.
    assert (N : v_num e = pour_size h L (windows (S := F1))).
    { assert (K : (2 * v_num e + spare (v_new (V := P0) tr) = 2 * v_num (v_new (V := P0) tr) + spare e + pour_size h L (windows (S := F1)) * 2)%nat) by (unfold pour_size; lia).
      apply fresh_num in K. rewrite K. rewrite Nat.add_comm, Nat.div_add by lia. reflexivity. }
    assert (D : dims (v_constrain e (balance v1 v2 v3 v4)) = [2; 2]%nat ++ repeat L ((h - 1) / 2) ++ [d] ++ repeat L ((h - 1) / 2) ++ [d]).
    { change (dims (v_constrain e (balance v1 v2 v3 v4))) with (dims e). rewrite D4, D3, D2, D1. change (dims (v_new tr)) with (@nil nat). rewrite <- !app_assoc. reflexivity. }
    split; [|exact D]. transitivity (v_num (v_constrain e (balance v1 v2 v3 v4))); [|exact N]. apply dims_size. rewrite D. change (v_num (v_constrain e (balance v1 v2 v3 v4))) with (v_num e). rewrite N. unfold pour_size.
    assert (Hrep : Forall (fun x => (x <= 128 + h / 2 * (2 * L + 21 * windows (S := F1) + 12))%nat) (repeat L ((h - 1) / 2))).
    { eapply repeat_below; [|reflexivity]. destruct (h / 2)%nat as [|k] eqn:Ek; [left; pose proof (Nat.div_le_mono (h - 1) h 2 ltac:(lia) ltac:(lia)); lia|right; nia]. }
    assert (Hdd : (d <= 128 + h / 2 * (2 * L + 21 * windows (S := F1) + 12))%nat) by (destruct Hd as [Hd|[Hd Hh]]; [lia|]; pose proof (Nat.div_le_mono 2 h 2 ltac:(lia) Hh) as K; change (2 / 2)%nat with 1%nat in K; nia).
    assert (Hd1 : Forall (fun x => (x <= 128 + h / 2 * (2 * L + 21 * windows (S := F1) + 12))%nat) [d]) by (constructor; [exact Hdd|constructor]).
    assert (H22 : Forall (fun x => (x <= 128 + h / 2 * (2 * L + 21 * windows (S := F1) + 12))%nat) [2; 2]%nat) by (constructor; [lia|constructor; [lia|constructor]]).
    apply Forall_app; split; [exact H22|]. apply Forall_app; split; [exact Hrep|]. apply Forall_app; split; [exact Hd1|]. apply Forall_app; split; [exact Hrep|exact Hd1].
  Qed.
  Lemma pour_odd_size L prm (t : CurveTree P0 P1) p0 p1 p0' p1' h tr t1' : root_width L t -> countable (even_p prm) -> verification_commitments t p0 = Some p0' -> verification_commitments t p1 = Some p1' ->
    (length (pa_even p0') + length (pa_odd p0') = h)%nat -> (length (pa_even p1') + length (pa_odd p1') = h)%nat -> pour_odd_circuit E1 enc0 L prm t p0' p1' (v_new tr) = Some t1' ->
    v_size t1' = ((h + 1) / 2 * (2 * L + 21 * windows (S := F0) + 12))%nat /\ dims t1' = repeat L (h / 2) ++ repeat L (h / 2).
  Proof.
    intros Hw Hc Hp0 Hp1 L0 L1. rewrite (completed_length _ _ _ Hp0) in L0. rewrite (completed_length _ _ _ Hp1) in L1.
    destruct (completed_counts _ _ _ _ Hp0 L0) as (_ & Ee0 & Er0), (completed_counts _ _ _ _ Hp1 L1) as (_ & Ee1 & Er1). unfold pour_odd_circuit.
    destruct (odd_gadget E1 enc0 L prm t p0' (v_new tr)) as [a|] eqn:R1; [|discriminate]. cbn [opt_bind]. intros R2.
    pose proof (odd_gadget_size E1 enc0 _ _ _ _ _ _ Hw Hc R1) as N1. pose proof (odd_gadget_size E1 enc0 _ _ _ _ _ _ Hw Hc R2) as N2.
    pose proof (odd_gadget_dims E1 enc0 _ _ _ _ _ _ _ Er0 R1) as D1. pose proof (odd_gadget_dims E1 enc0 _ _ _ _ _ _ _ Er1 R2) as D2.
    rewrite Ee0 in *. rewrite Ee1 in *. rewrite (proj2 (pred_count h)) in *. unfold level_halves in *.
    set (B := (2 * L + 21 * windows (S := F0) + 12)%nat) in *.
    assert (N : v_num t1' = ((h + 1) / 2 * B)%nat).
    { assert (K : (2 * v_num t1' + spare (v_new (V := P1) tr) = 2 * v_num (v_new (V := P1) tr) + spare t1' + (h + 1) / 2 * B * 2)%nat) by lia.
      apply fresh_num in K. rewrite K. rewrite Nat.add_comm, Nat.div_add by lia. reflexivity. }
    rewrite D1 in D2. change (dims (v_new tr)) with (@nil nat) in D2. cbn [app] in D2. split; [|exact D2]. rewrite <- N. apply dims_size. rewrite D2, N.
    assert (Hrep : Forall (fun x => (x <= (h + 1) / 2 * B)%nat) (repeat L (h / 2))).
    { eapply repeat_below; [|reflexivity]. destruct ((h + 1) / 2)%nat as [|k] eqn:Ek; [left; pose proof (Nat.div_le_mono h (h + 1) 2 ltac:(lia) ltac:(lia)); lia|right; unfold B; nia]. }
    apply Forall_app; split; exact Hrep.
  Qed.
End PourSize.

(** The two circuits of an honest pour have these sizes; each proof is made exactly if there
    are enough generators, and if both are made the pour is accepted (if no validated point is
    the identity). *)
Theorem C70_pour_capacity : forall (F0 F1 : PField) (P0 : SWCurve F1 F0) (P1 : SWCurve F0 F1) (FC : Field) (C : VSpace FC) (E0 : TrEnv P0) (E1 : TrEnv P1) (enc0 : P0 -> bytes) (enc1 : P1 -> bytes)
    (sg : SigScheme FC C) (enc_pk : C -> bytes) (enc_sc : FC -> bytes) (sha3 : bytes -> bytes)
    bp0 pc0 delta0 bp1 pc1 delta1 (prm : SRParams P0 P1) (L M : nat) (set : list P0) fuel height t oc dbg i0 i1 m0 m1 ro,
  sl_new bp0 pc0 delta0 = Some (even_p prm) -> sl_new bp1 pc1 delta1 = Some (odd_p prm) -> sw_a P0 = 0 -> sw_a P1 = 0 ->
  gens_wf bp0 -> (gens_capacity bp0 < 2 ^ 32)%nat -> gens_wf bp1 -> (gens_capacity bp1 < 2 ^ 32)%nat -> good_challenges E0 -> good_challenges E1 ->
  from_set fuel L M prm set height = TOk t -> (N.of_nat (L ^ t_height t) < 2 ^ 64)%N -> (0 < M)%nat -> (1 <= t_height t <= 14)%nat -> (2 <= L)%nat -> (L <= 128 \/ 2 <= t_height t)%nat ->
  honest_input sg enc_pk enc_sc sha3 oc L prm set t i0 -> honest_input sg enc_pk enc_sc sha3 oc L prm set t i1 ->
  honest_mint sg enc_pk enc_sc sha3 prm m0 -> honest_mint sg enc_pk enc_sc sha3 prm m1 ->
  (mi_value m0 + mi_value m1 = co_value (sp_coin i0) + co_value (sp_coin i1))%N ->
  let need0 := next_power_of_two (pour_size (t_height t) L (windows (S := F1))) in
  let need1 := next_power_of_two ((t_height t + 1) / 2 * (2 * L + 21 * windows (S := F0) + 12)) in
  exists s0' s1' path0 path1 c0 c1,
    pour_circuits E0 E1 enc0 enc1 sg enc_pk enc_sc sha3 dbg oc L pc0 pc1 prm t i0 i1 m0 m1 (p_new ro) (p_new ro) = Some (s0', s1', (path0, path1, c0, c1)) /\
    (forall dbg rnd, (gens_capacity bp0 < need0)%nat -> r1cs_prove E0 dbg rnd pc0 bp0 s0' = Some (Err InvalidGeneratorsLength)) /\
    (forall dbg rnd, (gens_capacity bp1 < need1)%nat -> r1cs_prove E1 dbg rnd pc1 bp1 s1' = Some (Err InvalidGeneratorsLength)) /\
    ((need0 <= gens_capacity bp0)%nat -> (need1 <= gens_capacity bp1)%nat -> forall dbg0 rnd0 dbg1 rnd1, exists pf0 tr0 pf1 tr1,
       r1cs_prove E0 dbg0 rnd0 pc0 bp0 s0' = Some (Ok (pf0, tr0)) /\ r1cs_prove E1 dbg1 rnd1 pc1 bp1 s1' = Some (Ok (pf1, tr1)) /\
       (Forall (fun P => P <> v0) (validated_points (op_degree_of (length (p_vec s0'))) pf0) -> Forall (fun P => P <> v0) (validated_points (op_degree_of (length (p_vec s1'))) pf1) ->
        forall dbg' rr0 rr1, exists vt0 vt1,
          pour_verify E0 E1 enc0 enc1 enc_pk sha3 dbg' L prm t ro rr0 rr1 (mkPour pf0 pf1 path0 path1 (sp_pk i0) (sp_pk i1) c0 c1) = Some (vt0, vt1) /\
          batch_verify [vt0] [] pc0 bp0 = Some (Ok tt) /\ batch_verify [vt1] [] pc1 bp1 = Some (Ok tt))).
Proof.
  intros F0 F1 P0 P1 FC C E0 E1 enc0 enc1 sg enc_pk enc_sc sha3 bp0 pc0 delta0 bp1 pc1 delta1 prm L M set fuel height t oc dbg i0 i1 m0 m1 ro Hsl0 Hsl1 Ha0 Ha1 W0 B0 W1 B1 G0 G1 Ht Hc HM Hh HL HD I0 I1 M0 M1 Hb need0 need1.
  destruct (sl_new_good _ _ _ _ Hsl0) as (Hg0 & Eb0 & Ep0 & _), (sl_new_good _ _ _ _ Hsl1) as (Hg1 & Eb1 & Ep1 & _). pose proof (sl_new_countable _ _ _ _ Hsl0) as C0. pose proof (sl_new_countable _ _ _ _ Hsl1) as C1. pose proof (from_set_width _ _ _ _ _ _ _ Ht) as Hw.
  clear Hsl0 Hsl1. subst bp0 pc0 bp1 pc1. assert (Hh' : t_height t <> 0%nat) by lia. set (pc0 := sl_pc (even_p prm)) in *. set (pc1 := sl_pc (odd_p prm)) in *.
  destruct (pour_total E0 E1 enc0 enc1 sg enc_pk enc_sc sha3 dbg oc L M prm set fuel height t i0 i1 m0 m1 (p_new ro) (p_new ro) Hg0 Hg1 Ha0 Ha1 Ht Hc HM Hh' I0 I1 M0 M1 Hb (honest_new _) (honest_new _)) as (s0' & s1' & [[[p0 p1] c0] c1] & R & H0 & H1 & D0 & D1).
  pose proof (honest_tag _ _ _ _ _ _ _ _ _ _ I0) as T0. pose proof (honest_tag _ _ _ _ _ _ _ _ _ _ I1) as T1.
  destruct (pour_run E0 E1 enc0 enc1 sg enc_pk enc_sc sha3 dbg oc L M prm set fuel height t i0 i1 m0 m1 ro ro _ _ _ _ _ _ _ _ _ _ Hg0 Hg1 Ht Hc HM Hh' T0 T1 (ses_new E0 _ _ ro) (ses_new E1 _ _ ro) R) as (p0' & p1' & t0' & t1' & Hp0 & Hp1 & L0 & L1 & V0 & V1 & S0 & S1).
  destruct (pour_even_size E0 enc1 enc_pk sha3 2 dbg L prm t _ _ _ _ _ _ _ _ _ _ _ Hw C1 ltac:(left; lia) Hp0 Hp1 L0 L1 V0) as [Z0 Q0]. destruct (pour_odd_size E1 enc0 L prm t _ _ _ _ _ _ _ Hw C0 Hp0 Hp1 L0 L1 V1) as [Z1 Q1].
  assert (K0 : (length (dims t0') <= 17)%nat).
  { rewrite Q0, !app_length, repeat_length. cbn [length]. assert ((t_height t - 1) / 2 <= 6)%nat by (apply (Nat.div_le_mono _ 13 2); lia). lia. }
  assert (K1 : (length (dims t1') <= 17)%nat).
  { rewrite Q1, !app_length, repeat_length. assert (t_height t / 2 <= 7)%nat by (apply (Nat.div_le_mono _ 14 2); lia). lia. }
  exists s0', s1', p0, p1, c0, c1. split; [exact R|]. split; [|split].
  - intros dbg0 rnd Hcap. exact (proj2 (capacity_exact E0 pc0 _ dbg0 rnd ro s0' t0' _ S0 H0 D0 W0 G0 K0 Z0) Hcap).
  - intros dbg0 rnd Hcap. exact (proj2 (capacity_exact E1 pc1 _ dbg0 rnd ro s1' t1' _ S1 H1 D1 W1 G1 K1 Z1) Hcap).
  - intros X0 X1 dbg0 rnd0 dbg1 rnd1. destruct (proj1 (capacity_exact E0 pc0 _ dbg0 rnd0 ro s0' t0' _ S0 H0 D0 W0 G0 K0 Z0) X0) as (pf0 & trf0 & Hpf0). destruct (proj1 (capacity_exact E1 pc1 _ dbg1 rnd1 ro s1' t1' _ S1 H1 D1 W1 G1 K1 Z1) X1) as (pf1 & trf1 & Hpf1).
    exists pf0, trf0, pf1, trf1. split; [exact Hpf0|]. split; [exact Hpf1|]. intros N0 N1.
    exact (pour_accepted E0 E1 enc0 enc1 sg enc_pk enc_sc sha3 dbg oc L M prm set fuel height t i0 i1 m0 m1 ro s0' s1' p0 p1 c0 c1 dbg0 rnd0 pf0 dbg1 rnd1 pf1
      Hg0 Hg1 Ht Hc HM Hh' HL HD T0 T1 R H0 H1 D0 D1 W0 B0 W1 B1 (conj (ex_intro _ trf0 Hpf0) N0) (conj (ex_intro _ trf1 Hpf1) N1)).
Qed.
Print Assumptions C70_pour_capacity.

(** From height 15 on no pour can be proved: there are 18 or more vector commitments on the
    even side. *)
Theorem C70_pour_too_high : forall (F0 F1 : PField) (P0 : SWCurve F1 F0) (P1 : SWCurve F0 F1) (FC : Field) (C : VSpace FC) (E0 : TrEnv P0) (E1 : TrEnv P1) (enc0 : P0 -> bytes) (enc1 : P1 -> bytes)
    (sg : SigScheme FC C) (enc_pk : C -> bytes) (enc_sc : FC -> bytes) (sha3 : bytes -> bytes)
    bp0 pc0 delta0 bp1 pc1 delta1 (prm : SRParams P0 P1) (L M : nat) (set : list P0) fuel height t oc dbg i0 i1 m0 m1 ro,
  sl_new bp0 pc0 delta0 = Some (even_p prm) -> sl_new bp1 pc1 delta1 = Some (odd_p prm) -> sw_a P0 = 0 -> sw_a P1 = 0 ->
  from_set fuel L M prm set height = TOk t -> (N.of_nat (L ^ t_height t) < 2 ^ 64)%N -> (0 < M)%nat -> (15 <= t_height t)%nat ->
  honest_input sg enc_pk enc_sc sha3 oc L prm set t i0 -> honest_input sg enc_pk enc_sc sha3 oc L prm set t i1 ->
  honest_mint sg enc_pk enc_sc sha3 prm m0 -> honest_mint sg enc_pk enc_sc sha3 prm m1 ->
  (mi_value m0 + mi_value m1 = co_value (sp_coin i0) + co_value (sp_coin i1))%N ->
  (next_power_of_two (pour_size (t_height t) L (windows (S := F1))) <= gens_capacity bp0)%nat ->
  exists s0' s1' out,
    pour_circuits E0 E1 enc0 enc1 sg enc_pk enc_sc sha3 dbg oc L pc0 pc1 prm t i0 i1 m0 m1 (p_new ro) (p_new ro) = Some (s0', s1', out) /\
    forall dbg rnd, r1cs_prove E0 dbg rnd pc0 bp0 s0' = None.
Proof.
  intros F0 F1 P0 P1 FC C E0 E1 enc0 enc1 sg enc_pk enc_sc sha3 bp0 pc0 delta0 bp1 pc1 delta1 prm L M set fuel height t oc dbg i0 i1 m0 m1 ro Hsl0 Hsl1 Ha0 Ha1 Ht Hc HM Hh I0 I1 M0 M1 Hb Hcap.
  destruct (sl_new_good _ _ _ _ Hsl0) as (Hg0 & Eb0 & Ep0 & _), (sl_new_good _ _ _ _ Hsl1) as (Hg1 & Eb1 & Ep1 & _). pose proof (sl_new_countable _ _ _ _ Hsl1) as C1. pose proof (from_set_width _ _ _ _ _ _ _ Ht) as Hw.
  clear Hsl0 Hsl1. subst bp0 pc0 bp1 pc1. assert (Hh' : t_height t <> 0%nat) by lia.
  destruct (pour_total E0 E1 enc0 enc1 sg enc_pk enc_sc sha3 dbg oc L M prm set fuel height t i0 i1 m0 m1 (p_new ro) (p_new ro) Hg0 Hg1 Ha0 Ha1 Ht Hc HM Hh' I0 I1 M0 M1 Hb (honest_new _) (honest_new _)) as (s0' & s1' & [[[p0 p1] c0] c1] & R & H0 & H1 & D0 & D1).
  pose proof (honest_tag _ _ _ _ _ _ _ _ _ _ I0) as T0. pose proof (honest_tag _ _ _ _ _ _ _ _ _ _ I1) as T1.
  destruct (pour_run E0 E1 enc0 enc1 sg enc_pk enc_sc sha3 dbg oc L M prm set fuel height t i0 i1 m0 m1 ro ro _ _ _ _ _ _ _ _ _ _ Hg0 Hg1 Ht Hc HM Hh' T0 T1 (ses_new E0 _ _ ro) (ses_new E1 _ _ ro) R) as (p0' & p1' & t0' & t1' & Hp0 & Hp1 & L0 & L1 & V0 & V1 & S0 & S1).
  destruct (pour_even_size E0 enc1 enc_pk sha3 2 dbg L prm t _ _ _ _ _ _ _ _ _ _ _ Hw C1 ltac:(left; lia) Hp0 Hp1 L0 L1 V0) as [Z0 Q0].
  exists s0', s1', (p0, p1, c0, c1). split; [exact R|]. intros dbg0 rnd. destruct (session_size _ _ _ _ _ _ S0) as [Es El].
  apply (C18_eighteen_panics _ P0 E0 _ _ ro s0' t0' dbg0 rnd S0 D0); [rewrite Es, Z0; exact Hcap|]. rewrite El, Q0, !app_length, repeat_length. cbn [length].
  assert (7 <= (t_height t - 1) / 2)%nat by (apply (Nat.div_le_mono 14 _ 2); lia). lia.
Qed.
Print Assumptions C70_pour_too_high.

(** ** The parameters used in the repository *)
(** the scalar fields of pallas, vesta (255 bits), secp256k1 and secq256k1 (256 bits) *)
Lemma windows_real (S : PField) : modulus_bits S = 255%nat \/ modulus_bits S = 256%nat -> windows (S := S) = 86%nat.
Proof. unfold windows. intros [-> | ->]; reflexivity. Qed.
(** curve_tree.rs (tests) 29-36, select_rerandomize.rs (benches) 35-99: branching factor,
    height, logarithm of the number of generators *)
Definition path_configs : list (nat * nat * nat) := [(32, 4, 11); (32, 3, 11); (1024, 2, 11); (256, 4, 12); (1024, 4, 12)]%nat.
(** coin.rs (benches) 44-101: the same for pours *)
Definition pour_configs : list (nat * nat * nat) := [(1024, 2, 12); (256, 4, 13); (1024, 4, 13)]%nat.
(** batched_curve_tree.rs (tests) 21-28, batched_select_rerandomize.rs (benches) 47-119: branching
    factor, number of paths, height, logarithms of the numbers of generators (even, odd) *)
Definition batch_configs : list (nat * nat * nat * nat * nat) :=
  [(32, 2, 4, 12, 12); (32, 2, 3, 12, 12); (1024, 2, 2, 12, 12); (256, 2, 4, 12, 12); (256, 4, 4, 12, 13); (256, 8, 4, 13, 14); (1024, 2, 4, 13, 13)]%nat.

(** In each configuration there are enough generators; for paths and pours half as many would
    not be enough. *)
Theorem C70_configurations : forall (F0 F1 : PField), modulus_bits F0 = 255%nat \/ modulus_bits F0 = 256%nat -> modulus_bits F1 = 255%nat \/ modulus_bits F1 = 256%nat ->
  Forall (fun c => match c with (L, h, k) => Nat.max (next_power_of_two (levels_size (h / 2) L (windows (S := F1)))) (next_power_of_two (levels_size ((h + 1) / 2) L (windows (S := F0)))) = (2 ^ k)%nat end) path_configs /\
  Forall (fun c => match c with (L, h, k) => Nat.max (next_power_of_two (pour_size h L (windows (S := F1)))) (next_power_of_two ((h + 1) / 2 * (2 * L + 21 * windows (S := F0) + 12))) = (2 ^ k)%nat end) pour_configs /\
  Forall (fun c => match c with (L, M, h, k0, k1) => (next_power_of_two (batch_size (h / 2) M L (windows (S := F1)) false) <= 2 ^ k0)%nat /\
                                                      (next_power_of_two (batch_size ((h + 1) / 2 - 1) M L (windows (S := F0)) true) <= 2 ^ k1)%nat end) batch_configs.
Proof.
  intros F0 F1 H0 H1. rewrite (windows_real _ H0), (windows_real _ H1). split; [|split].
  - assert (H : forallb (fun c => match c with (L, h, k) => Nat.max (next_power_of_two (levels_size (h / 2) L 86)) (next_power_of_two (levels_size ((h + 1) / 2) L 86)) =? 2 ^ k end)%nat path_configs = true) by (vm_compute; reflexivity).
    rewrite forallb_forall in H. apply Forall_forall. intros [[L h] k] Hx. apply H in Hx. apply Nat.eqb_eq. exact Hx.
  - assert (H : forallb (fun c => match c with (L, h, k) => Nat.max (next_power_of_two (pour_size h L 86)) (next_power_of_two ((h + 1) / 2 * (2 * L + 21 * 86 + 12))) =? 2 ^ k end)%nat pour_configs = true) by (vm_compute; reflexivity).
    rewrite forallb_forall in H. apply Forall_forall. intros [[L h] k] Hx. apply H in Hx. apply Nat.eqb_eq. exact Hx.
  - assert (H : forallb (fun c => match c with (L, M, h, k0, k1) => (next_power_of_two (batch_size (h / 2) M L 86 false) <=? 2 ^ k0) && (next_power_of_two (batch_size ((h + 1) / 2 - 1) M L 86 true) <=? 2 ^ k1) end)%nat batch_configs = true) by (vm_compute; reflexivity).
    rewrite forallb_forall in H. apply Forall_forall. intros [[[[L M] h] k0] k1] Hx. apply H in Hx. apply andb_prop in Hx as [A B]. split; apply Nat.leb_le; assumption.
Qed.
Print Assumptions C70_configurations.
(** the size of one level with branching factor 256: 1165 multipliers; the pour of coin.rs *)
Example C70_sizes : levels_size 1 256 86 = 1165%nat /\ levels_size 2 1024 86 = 3866%nat /\ pour_size 4 256 86 = 4788%nat /\ batch_size 1 8 256 86 true = 12340%nat.
Proof. repeat split; vm_compute; reflexivity. Qed.


From Verif Require Import Toy ToyCurve PropsGadgets PropsRerand R1CS R1CSSpec R1CSProofs R1CSMain.
(** ** The hypotheses are satisfiable over the toy cycle *)
(** all challenges are 5 *)
Definition GE0 : TrEnv TC0 := const_env TC0 (f163 5).
(* test data or vocabulary of statements, no code modelled *)
Definition GE1 : TrEnv TC1 := const_env TC1 (f139 5).
Lemma good0 : good_challenges GE0.
Proof. intros tr lb. apply const_env_good. apply feqb_false. vm_compute. reflexivity. Qed.
Lemma good1 : good_challenges GE1.
Proof. intros tr lb. apply const_env_good. apply feqb_false. vm_compute. reflexivity. Qed.
Lemma cap_128 : (128 < 2 ^ 32)%nat.
Proof. apply (Nat.lt_le_trans _ (2 ^ 8)); [apply Nat.ltb_lt; vm_compute; reflexivity|apply Nat.pow_le_mono_r; lia]. Qed.
(** Five leaves, height 3, branching factor 2: 40 and 79 multipliers, 64 and 128 generators. *)
Example C70_path_demo : exists (prm : SRParams TC0 TC1) t s0' s1' (t0' : VState TC0) (t1' : VState TC1) p r, from_set 6 2 2 prm toy_set None = TOk t /\ t_height t = 3%nat /\
  levels_size (3 / 2) 2 (windows (S := PF139)) = 40%nat /\ levels_size ((3 + 1) / 2) 2 (windows (S := PF163)) = 79%nat /\
  tree_prove GE0 GE1 ec0 ec1 true 2 t 3 0 toy_pcg toy_pcg1 prm toy_os toy_es (p_new []) (p_new []) = Some (s0', s1', (p, r)) /\
  sr_verify GE0 GE1 ec0 ec1 true 2 prm t p (v_new []) (v_new []) = Some (t0', t1', vadd (k163 53) (vsmul r (pcB_blinding toy_pcg))) /\
  (exists pf tr, r1cs_prove GE0 true (toy_rnd PM163) toy_pcg big0 s0' = Some (Ok (pf, tr))) /\ (exists pf tr, r1cs_prove GE1 true (toy_rnd PM139) toy_pcg1 big1 s1' = Some (Ok (pf, tr))).
Proof.
  destruct (with_tree_spec 0 (fun prm t e o => (t_height t =? 3)%nat && adm_all (odd_p prm) toy_os e && adm_all (even_p prm) toy_es o)%bool ltac:(vm_compute; reflexivity)) as (prm & t & e & o & H0 & H1 & Ht & Hw & H).
  apply andb_prop in H as [H Ao]. apply andb_prop in H as [Eh Ae]. apply Nat.eqb_eq in Eh. pose proof (adm_all_spec _ _ _ Ae) as Be. pose proof (adm_all_spec _ _ _ Ao) as Bo.
  destruct (C70_path_capacity _ _ TC0 TC1 GE0 GE1 ec0 ec1 big0 toy_pcg toy_delta big1 toy_pcg1 toy_delta1 prm 2 2 toy_set 6 None t true 3 (k163 53) e o toy_os toy_es [] []
    H0 H1 eq_refl eq_refl (gens_wf_new _ _ _ _ _) (gens_wf_new _ _ _ _ _) cap_128 cap_128 good0 good1 Ht ltac:(rewrite Eh; vm_compute; reflexivity) ltac:(lia) ltac:(lia) eq_refl Hw Be Bo)
    as (s0' & s1' & t0' & t1' & p & r & Hp & Hv & R0 & _ & R1 & _).
  exists prm, t, s0', s1', t0', t1', p, r. split; [exact Ht|]. split; [exact Eh|]. split; [vm_compute; reflexivity|]. split; [vm_compute; reflexivity|]. split; [exact Hp|]. split; [exact (Hv true)|].
  destruct (R0 true (toy_rnd PM163) ltac:(rewrite Eh; apply Nat.leb_le; vm_compute; reflexivity)) as (pf0 & tr0 & K0 & _). destruct (R1 true (toy_rnd PM139) ltac:(rewrite Eh; apply Nat.leb_le; vm_compute; reflexivity)) as (pf1 & tr1 & K1 & _).
  split; [exists pf0, tr0; exact K0|exists pf1, tr1; exact K1].
Qed.
(** A tree with generators of the given lengths, a given height, and scalars found by search. *)
Definition pick {F S S' : PField} {C : SWCurve F S} (prm : SLParams C) (of : Z -> S) (w : Wit S' C) : S :=
  match find (fun z => adm_b prm (w_child w) (of z)) (map Z.of_nat (seq 9 130)) with Some z => of z | None => 0 end.
(* test data or vocabulary of statements, no code modelled *)
Definition picks {F S S' : PField} {C : SWCurve F S} (prm : SLParams C) (of : Z -> S) (ws : list (Wit S' C)) : nat -> S :=
  let l := map (pick prm of) ws in fun k => nth k l 0.
(* test data or vocabulary of statements, no code modelled *)
Definition with_high (c0 c1 fuel height : nat) (f : SRParams TC0 TC1 -> CurveTree TC0 TC1 -> bool) : bool :=
  match sl_new (toy_gens PM163 c0 1 : BPGens TC0) toy_pcg toy_delta, sl_new (toy_gens PM139 c1 1 : BPGens TC1) toy_pcg1 toy_delta1 with
  | Some a, Some b => let prm := mkSRP a b in
     match from_set fuel 2 1 prm toy_set (Some height) with
     | TOk t => match tree_witness true 2 t 3 0 prm with Some (e, o) => adm_all (odd_p prm) (picks (odd_p prm) f139 e) e && adm_all (even_p prm) (picks (even_p prm) f163 o) o && (t_height t =? height)%nat && f prm t | None => false end
     | _ => false end
  | _, _ => false end.
Lemma with_high_spec c0 c1 fuel height f : with_high c0 c1 fuel height f = true -> exists (prm : SRParams TC0 TC1) t e o os es,
  sl_new (toy_gens PM163 c0 1 : BPGens TC0) toy_pcg toy_delta = Some (even_p prm) /\ sl_new (toy_gens PM139 c1 1 : BPGens TC1) toy_pcg1 toy_delta1 = Some (odd_p prm) /\
  from_set fuel 2 1 prm toy_set (Some height) = TOk t /\ t_height t = height /\ tree_witness true 2 t 3 0 prm = Some (e, o) /\
  (forall k w, nth_error e k = Some w -> admissible (odd_p prm) (w_child w) (os k)) /\ (forall k w, nth_error o k = Some w -> admissible (even_p prm) (w_child w) (es k)) /\ f prm t = true.
Proof.
  unfold with_high. intros H. destruct (sl_new (toy_gens PM163 c0 1 : BPGens TC0) toy_pcg toy_delta) as [a|]; [|discriminate H]. destruct (sl_new (toy_gens PM139 c1 1 : BPGens TC1) toy_pcg1 toy_delta1) as [b|]; [|discriminate H]. cbv zeta in H.
  destruct (from_set fuel 2 1 (mkSRP a b) toy_set (Some height)) as [t| |] eqn:Et; try discriminate H. destruct (tree_witness true 2 t 3 0 (mkSRP a b)) as [[e o]|] eqn:Ew; [|discriminate H].
  apply andb_prop in H as [H Hf]. apply andb_prop in H as [H Eh]. apply andb_prop in H as [Ae Ao]. apply Nat.eqb_eq in Eh.
  exists (mkSRP a b), t, e, o, (picks b f139 e), (picks a f163 o). split; [reflexivity|]. split; [reflexivity|]. split; [exact Et|]. split; [exact Eh|]. split; [exact Ew|].
  split; [exact (adm_all_spec _ _ _ Ae)|]. split; [exact (adm_all_spec _ _ _ Ao)|exact Hf].
Qed.
(** Height 3, but only 64 generators on the odd side: the odd proof is refused, the even one is made. *)
Example C70_path_short_demo : exists (prm : SRParams TC0 TC1) t os es s0' s1' p r, from_set 9 2 1 prm toy_set (Some 3%nat) = TOk t /\ t_height t = 3%nat /\
  tree_prove GE0 GE1 ec0 ec1 true 2 t 3 0 toy_pcg toy_pcg1 prm os es (p_new []) (p_new []) = Some (s0', s1', (p, r)) /\
  (exists pf tr, r1cs_prove GE0 true (toy_rnd PM163) toy_pcg (toy_gens PM163 64 1) s0' = Some (Ok (pf, tr))) /\ r1cs_prove GE1 true (toy_rnd PM139) toy_pcg1 (toy_gens PM139 64 1) s1' = Some (Err InvalidGeneratorsLength).
Proof.
  destruct (with_high_spec 64 64 9 3 (fun _ _ => true) ltac:(vm_compute; reflexivity)) as (prm & t & e & o & os & es & H0 & H1 & Ht & Eh & Hw & Be & Bo & _).
  assert (B : (64 < 2 ^ 32)%nat) by (pose proof cap_128; lia).
  destruct (C70_path_capacity _ _ TC0 TC1 GE0 GE1 ec0 ec1 (toy_gens PM163 64 1) toy_pcg toy_delta (toy_gens PM139 64 1) toy_pcg1 toy_delta1 prm 2 1 toy_set 9 (Some 3%nat) t true 3 (k163 53) e o os es [] []
    H0 H1 eq_refl eq_refl (gens_wf_new _ _ _ _ _) (gens_wf_new _ _ _ _ _) B B good0 good1 Ht ltac:(rewrite Eh; vm_compute; reflexivity) ltac:(lia) ltac:(lia) eq_refl Hw Be Bo)
    as (s0' & s1' & t0' & t1' & p & r & Hp & _ & R0 & _ & _ & R1).
  exists prm, t, os, es, s0', s1', p, r. split; [exact Ht|]. split; [exact Eh|]. split; [exact Hp|]. split.
  - destruct (R0 true (toy_rnd PM163) ltac:(rewrite Eh; apply Nat.leb_le; vm_compute; reflexivity)) as (pf0 & tr0 & K0 & _). exists pf0, tr0. exact K0.
  - apply R1. rewrite Eh. apply Nat.ltb_lt. vm_compute. reflexivity.
Qed.
(** Five leaves in a tree of height 36, with 1024 generators: the odd proof cannot be made. *)
Example C70_path_too_high_demo : exists (prm : SRParams TC0 TC1) t os es s0' s1' p r, from_set 40 2 1 prm toy_set (Some 36%nat) = TOk t /\ t_height t = 36%nat /\
  tree_prove GE0 GE1 ec0 ec1 true 2 t 3 0 toy_pcg toy_pcg1 prm os es (p_new []) (p_new []) = Some (s0', s1', (p, r)) /\ forall rnd, r1cs_prove GE1 true rnd toy_pcg1 (toy_gens PM139 1024 1) s1' = None.
Proof.
  destruct (with_high_spec 64 1024 40 36 (fun _ _ => true) ltac:(vm_compute; reflexivity)) as (prm & t & e & o & os & es & H0 & H1 & Ht & Eh & Hw & Be & Bo & _).
  destruct (C70_path_too_high _ _ TC0 TC1 GE0 GE1 ec0 ec1 (toy_gens PM163 64 1) toy_pcg toy_delta (toy_gens PM139 1024 1) toy_pcg1 toy_delta1 prm 2 1 toy_set 40 (Some 36%nat) t true 3 (k163 53) e o os es [] []
    H0 H1 eq_refl eq_refl Ht ltac:(rewrite Eh, Nnat.Nat2N.inj_pow; vm_compute; reflexivity) ltac:(lia) ltac:(lia) eq_refl Hw Be Bo ltac:(rewrite Eh; apply Nat.leb_le; vm_compute; reflexivity)) as (s0' & s1' & p & r & Hp & R).
  exists prm, t, os, es, s0', s1', p, r. split; [exact Ht|]. split; [exact Eh|]. split; [exact Hp|]. exact (R true).
Qed.
(** Two paths in the tree of height 3: 51 and 130 multipliers, 64 and 256 generators. *)
Example C70_batched_demo : exists (prm : SRParams TC0 TC1) t s0' s1' (t0' : VState TC0) (t1' : VState TC1) p rs sel, from_set 6 2 2 prm toy_set None = TOk t /\ t_height t = 3%nat /\
  batch_size (3 / 2) 2 2 (windows (S := PF139)) false = 51%nat /\ batch_size ((3 + 1) / 2 - 1) 2 2 (windows (S := PF163)) true = 130%nat /\
  mtree_prove GE0 GE1 ec0 true 2 t [3; 2]%N toy_pcg toy_pcg1 prm toy_os toy_es toy_ls (p_new []) (p_new []) = Some (s0', s1', (p, rs)) /\
  msr_verify GE0 GE1 ec0 true 2 2 prm t p (v_new []) (v_new []) = Some (t0', t1', sel) /\
  (exists pf tr, r1cs_prove GE0 true (toy_rnd PM163) toy_pcg huge0 s0' = Some (Ok (pf, tr))) /\ (exists pf tr, r1cs_prove GE1 true (toy_rnd PM139) toy_pcg1 huge1 s1' = Some (Ok (pf, tr))).
Proof.
  destruct (with_mtree_spec [3; 2]%N (fun prm t e o => (t_height t =? 3)%nat && badm_all (odd_p prm) toy_os e && badm_all (even_p prm) toy_es (removelast o) && adm_all (even_p prm) toy_ls (last o []))%bool ltac:(vm_compute; reflexivity)) as (prm & t & e & o & H0 & H1 & Ht & Hw & H).
  apply andb_prop in H as [H Al]. apply andb_prop in H as [H Ao]. apply andb_prop in H as [Eh Ae]. apply Nat.eqb_eq in Eh. pose proof (badm_all_spec _ _ _ Ae) as Be. pose proof (badm_all_spec _ _ _ Ao) as Bo. pose proof (adm_all_spec _ _ _ Al) as Bl.
  destruct (C70_batched_capacity _ _ TC0 TC1 GE0 GE1 ec0 huge0 toy_pcg toy_delta huge1 toy_pcg1 toy_delta1 prm 2 toy_set 6 None t true [3; 2]%N e o toy_os toy_es toy_ls [] []
    H0 H1 eq_refl eq_refl (gens_wf_new _ _ _ _ _) (gens_wf_new _ _ _ _ _) cap_256 cap_256 good0 good1 Ht ltac:(rewrite Eh; vm_compute; reflexivity) ltac:(lia) Hw Be Bo Bl)
    as (s0' & s1' & t0' & t1' & p & rs & sel & Hp & Hv & R0 & _ & R1 & _).
  exists prm, t, s0', s1', t0', t1', p, rs, sel. split; [exact Ht|]. split; [exact Eh|]. split; [vm_compute; reflexivity|]. split; [vm_compute; reflexivity|]. split; [exact Hp|]. split; [exact Hv|].
  destruct (R0 true (toy_rnd PM163) ltac:(rewrite Eh; apply Nat.leb_le; vm_compute; reflexivity)) as (pf0 & tr0 & K0 & _). destruct (R1 true (toy_rnd PM139) ltac:(rewrite Eh; apply Nat.leb_le; vm_compute; reflexivity)) as (pf1 & tr1 & K1 & _).
  split; [exists pf0, tr0; exact K0|exists pf1, tr1; exact K1].
Qed.
(** The pour of [C56_demo]: 207 and 158 multipliers, 256 generators. *)
Example C70_pour_demo : exists (prm : SRParams TC0 TC1) t i0 i1 s0' s1' path0 path1 c0 c1, t_height t = 3%nat /\ pour_size 3 2 (windows (S := PF139)) = 207%nat /\
    pour_circuits GE0 GE1 ec0 ec1 toy_schnorr ec1 sc139 toy_sha true true 2 toy_pcg toy_pcg1 prm t i0 i1 (toy_m0 40) (toy_m1 2) (p_new toy_ro) (p_new toy_ro) = Some (s0', s1', (path0, path1, c0, c1)) /\
    exists pf0 tr0 pf1 tr1, r1cs_prove GE0 true (toy_rnd PM163) toy_pcg pos0 s0' = Some (Ok (pf0, tr0)) /\ r1cs_prove GE1 true (toy_rnd PM139) toy_pcg1 pos1 s1' = Some (Ok (pf1, tr1)).
Proof.
  destruct purse_demo as (prm & t & set & i0 & i1 & H0 & H1 & A0 & A1 & Ht & Eh & I0 & I1 & V0 & V1 & M0 & M1 & _).
  destruct (C70_pour_capacity _ _ TC0 TC1 _ _ GE0 GE1 ec0 ec1 toy_schnorr ec1 sc139 toy_sha pos0 toy_pcg toy_delta pos1 toy_pcg1 toy_delta1 prm 2 1 set 6 None t true true i0 i1 (toy_m0 40) (toy_m1 2) toy_ro
    H0 H1 A0 A1 (gens_wf_new _ _ _ _ _) cap_256 (gens_wf_new _ _ _ _ _) cap_256 good0 good1 Ht ltac:(rewrite Eh; vm_compute; reflexivity) ltac:(lia) ltac:(lia) ltac:(lia) ltac:(left; lia) I0 I1 M0 M1
    ltac:(rewrite V0, V1; reflexivity)) as (s0' & s1' & p0 & p1 & c0 & c1 & R & _ & _ & K).
  exists prm, t, i0, i1, s0', s1', p0, p1, c0, c1. split; [exact Eh|]. split; [vm_compute; reflexivity|]. split; [exact R|].
  destruct (K ltac:(rewrite Eh; apply Nat.leb_le; vm_compute; reflexivity) ltac:(rewrite Eh; apply Nat.leb_le; vm_compute; reflexivity) true (toy_rnd PM163) true (toy_rnd PM139)) as (pf0 & tr0 & pf1 & tr1 & K0 & K1 & _).
  exists pf0, tr0, pf1, tr1. split; assumption.
Qed.
(** Two coins in a tree of height 15, with 1024 generators: they cannot be poured. *)
Definition high_spend (prm : SRParams TC0 TC1) (t : CurveTree TC0 TC1) (k : nat) (coin : CoinT PF163 PF139) (sk : PF139) : option Sp :=
  match tree_witness true 2 t (N.of_nat k) 0 prm with
  | Some (e, o) => let os := picks (odd_p prm) f139 e in let es := picks (even_p prm) f163 o in
     if adm_all (odd_p prm) os e && adm_all (even_p prm) es o
     then Some (mkSpending (C := TC1) (N.of_nat k) coin (vadd (toy_pk_of sk) (toy_pk_of (fN (le_value (sc139 (co_pk_randomness coin)))))) sk os es) else None
  | None => None end.
Lemma high_input_ok prm t set k value sk pkr b coin leaf i : toy_new (even_p prm) value (toy_pk_of sk) pkr b = Some (coin, leaf) -> nth_error set k = Some leaf -> high_spend prm t k coin sk = Some i ->
  toy_input true 2 prm set t i /\ co_value (sp_coin i) = value.
Proof.
  intros Hn Hs Hp. unfold high_spend in Hp. destruct (tree_witness true 2 t (N.of_nat k) 0 prm) as [[e o]|] eqn:Hw; [|discriminate Hp]. cbv zeta in Hp. destruct (_ && _)%bool eqn:Ha in Hp; [|discriminate Hp]. apply andb_prop in Ha as [Ae Ao]. injection Hp as <-.
  destruct (coin_new_spec _ _ _ _ _ _ _ _ _ _ _ Hn) as (rpk & Hr & Hc & _). split; [|subst coin; reflexivity].
  exists k, leaf, (toy_pk_of sk), e, o. split; [reflexivity|]. split; [exact Hs|]. cbn [sp_coin sp_pk sp_os sp_es] in *.
  split; [subst coin; exact Hn|]. split; [subst coin; reflexivity|]. split; [exact Hw|].
  split; [exact (adm_all_spec _ _ _ Ae)|exact (adm_all_spec _ _ _ Ao)].
Qed.
(* test data or vocabulary of statements, no code modelled *)
Definition high0 : BPGens TC0 := toy_gens PM163 1024 1.
(* test data or vocabulary of statements, no code modelled *)
Definition with_high_purse (height : nat) (f : SRParams TC0 TC1 -> CurveTree TC0 TC1 -> bool) : bool :=
  match sl_new high0 toy_pcg toy_delta, sl_new pos1 toy_pcg1 toy_delta1 with
  | Some a, Some b => let prm := mkSRP a b in
     match toy_new a 30 (toy_pk_of (f139 17)) (f139 21) (f163 8), toy_new a 12 (toy_pk_of (f139 19)) (f139 23) (f163 9) with
     | Some (x0, c0), Some (x1, c1) =>
       match from_set 20 2 1 prm (toy_purse c0 c1) (Some height) with
       | TOk t => match high_spend prm t 1 x0 (f139 17), high_spend prm t 3 x1 (f139 19) with Some i0, Some i1 => f prm t | _, _ => false end
       | _ => false end
     | _, _ => false end
  | _, _ => false end.
Lemma with_high_purse_spec height f : with_high_purse height f = true ->
  exists (prm : SRParams TC0 TC1) t set i0 i1, sl_new high0 toy_pcg toy_delta = Some (even_p prm) /\ sl_new pos1 toy_pcg1 toy_delta1 = Some (odd_p prm) /\ from_set 20 2 1 prm set (Some height) = TOk t /\
    toy_input true 2 prm set t i0 /\ toy_input true 2 prm set t i1 /\ co_value (sp_coin i0) = 30%N /\ co_value (sp_coin i1) = 12%N /\ f prm t = true.
Proof.
  unfold with_high_purse. intros H. destruct (sl_new high0 toy_pcg toy_delta) as [a|]; [|discriminate H]. destruct (sl_new pos1 toy_pcg1 toy_delta1) as [b|]; [|discriminate H]. cbv zeta in H.
  destruct (toy_new a 30 _ _ _) as [[x0 c0]|] eqn:N0; [|discriminate H]. destruct (toy_new a 12 _ _ _) as [[x1 c1]|] eqn:N1; [|discriminate H].
  destruct (from_set 20 2 1 (mkSRP a b) (toy_purse c0 c1) (Some height)) as [t| |] eqn:Et; try discriminate H.
  destruct (high_spend (mkSRP a b) t 1 x0 (f139 17)) as [i0|] eqn:S0; [|discriminate H]. destruct (high_spend (mkSRP a b) t 3 x1 (f139 19)) as [i1|] eqn:S1; [|discriminate H].
  destruct (high_input_ok (mkSRP a b) t (toy_purse c0 c1) 1 _ _ _ _ _ _ _ N0 eq_refl S0) as [I0 V0]. destruct (high_input_ok (mkSRP a b) t (toy_purse c0 c1) 3 _ _ _ _ _ _ _ N1 eq_refl S1) as [I1 V1].
  exists (mkSRP a b), t, (toy_purse c0 c1), i0, i1. split; [reflexivity|]. split; [reflexivity|]. split; [exact Et|]. split; [exact I0|]. split; [exact I1|]. split; [exact V0|]. split; [exact V1|exact H].
Qed.
Lemma high_purse_run : with_high_purse 15 (fun prm t => (t_height t =? 15)%nat && mint_ok prm (toy_m0 40) && mint_ok prm (toy_m1 2))%bool = true.
Proof. vm_compute. reflexivity. Qed.
Example C70_pour_too_high_demo : exists (prm : SRParams TC0 TC1) t set i0 i1 s0' s1' out, from_set 20 2 1 prm set (Some 15%nat) = TOk t /\ t_height t = 15%nat /\ co_value (sp_coin i0) = 30%N /\ co_value (sp_coin i1) = 12%N /\
    pour_circuits GE0 GE1 ec0 ec1 toy_schnorr ec1 sc139 toy_sha true true 2 toy_pcg toy_pcg1 prm t i0 i1 (toy_m0 40) (toy_m1 2) (p_new toy_ro) (p_new toy_ro) = Some (s0', s1', out) /\
    forall rnd, r1cs_prove GE0 true rnd toy_pcg high0 s0' = None.
Proof.
  destruct (with_high_purse_spec _ _ high_purse_run) as (prm & t & set & i0 & i1 & H0 & H1 & Et & I0 & I1 & V0 & V1 & H).
  apply andb_prop in H as [H M1]. apply andb_prop in H as [Eh M0]. apply Nat.eqb_eq in Eh. apply mint_ok_spec in M0, M1.
  destruct (C70_pour_too_high _ _ TC0 TC1 _ _ GE0 GE1 ec0 ec1 toy_schnorr ec1 sc139 toy_sha high0 toy_pcg toy_delta pos1 toy_pcg1 toy_delta1 prm 2 1 set 20 (Some 15%nat) t true true i0 i1 (toy_m0 40) (toy_m1 2) toy_ro
    H0 H1 eq_refl eq_refl Et ltac:(rewrite Eh, Nnat.Nat2N.inj_pow; vm_compute; reflexivity) ltac:(lia) ltac:(lia) I0 I1 M0 M1 ltac:(rewrite V0, V1; reflexivity) ltac:(rewrite Eh; apply Nat.leb_le; vm_compute; reflexivity)) as (s0' & s1' & out & R & K).
  exists prm, t, set, i0, i1, s0', s1', out. split; [exact Et|]. split; [exact Eh|]. split; [exact V0|]. split; [exact V1|]. split; [exact R|exact (K true)].
Qed.
