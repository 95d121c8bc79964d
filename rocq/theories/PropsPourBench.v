(** * Batches of payments: C84 *)
From Verif Require Export PourBench PropsCoin PropsSize PropsSelBench.
From Verif Require Import CSProofs UtilProofs Lockstep CSMore R1CS R1CSSpec R1CSProofs R1CSMain R1CSBatch SoundSpec CircuitSize PourProofs Toy ToyCurve.
Local Open Scope F_scope.

(** ** Vocabulary *)
Section Spec.
  Context {F0 F1 : PField} {P0 : SWCurve F1 F0} {P1 : SWCurve F0 F1} {FC : Field} {C : VSpace FC}.
  Variables (E0 : TrEnv P0) (E1 : TrEnv P1) (enc0 : P0 -> bytes) (enc1 : P1 -> bytes) (enc_pk : C -> bytes) (sha3 : bytes -> bytes).
  (** The paths of the payment can be completed to the root of the tree and the ordinary
      verifiers of both curves accept its proofs (vocabulary of statements, no code
      modelled). *)
  Definition pour_valid (dbg : bool) (L : nat) (prm : SRParams P0 P1) (t : CurveTree P0 P1) (job : Pour P0 P1 C * F0 * F1) : Prop :=
    let '(po, rr0, rr1) := job in
    exists p0 p1 t0 t1, verification_commitments t (po_path0 po) = Some p0 /\ verification_commitments t (po_path1 po) = Some p1 /\
      pour_even_circuit E0 enc1 enc_pk sha3 dbg L prm t po p0 p1 (v_new bench_transcript) = Some t0 /\ r1cs_verify E0 dbg rr0 (po_even po) (sl_pc (even_p prm)) (sl_bp (even_p prm)) t0 = Some (Ok tt) /\
      pour_odd_circuit E1 enc0 L prm t p0 p1 (v_new bench_transcript) = Some t1 /\ r1cs_verify E1 dbg rr1 (po_odd po) (sl_pc (odd_p prm)) (sl_bp (odd_p prm)) t1 = Some (Ok tt).
  (** Both paths are for a tree of height [h] and the proofs have as many R as L points
      (vocabulary of statements, no code modelled). *)
  Definition pour_shape (h : nat) (job : Pour P0 P1 C * F0 * F1) : Prop :=
    let '(po, _, _) := job in
    (length (pa_even (po_path0 po)) + length (pa_odd (po_path0 po)) + 1 = h)%nat /\ (length (pa_even (po_path1 po)) + length (pa_odd (po_path1 po)) + 1 = h)%nat /\
    length (ipp_R (pipp (po_even po))) = length (ipp_L (pipp (po_even po))) /\ length (ipp_R (pipp (po_odd po))) = length (ipp_L (pipp (po_odd po))).
End Spec.

(** ** Lemmas *)
Lemma all_some_pairs {X A B} (f : X -> option A) (g : X -> option B) : forall l,
  all_some (map (fun x => do a <- f x; do b <- g x; Some (a, b)) l) = do al <- all_some (map f l); do bl <- all_some (map g l); Some (combine al bl).
Proof.
  induction l as [|x l IH]; [reflexivity|]. cbn [map all_some]. rewrite IH. destruct (f x) as [a|]; [|reflexivity]. cbn [opt_bind]. destruct (g x) as [b|]; cbn [opt_bind].
  - destruct (all_some (map f l)) as [al|]; [|reflexivity]. cbn [opt_bind]. destruct (all_some (map g l)); reflexivity.
  - destruct (all_some (map f l)); reflexivity.
Qed.
Lemma all_some_len {X A} (f : X -> option A) l r : all_some (map f l) = Some r -> length r = length l.
Proof. intros H. apply all_some_spec, Forall2_len in H. rewrite map_length in H. congruence. Qed.
Lemma combine_fst {A B} : forall (l : list A) (l' : list B), length l = length l' -> map fst (combine l l') = l.
Proof. induction l as [|a l IH]; intros [|b l'] H; cbn in *; try lia; [reflexivity|]. f_equal. apply IH. lia. Qed.
Lemma combine_snd {A B} : forall (l : list A) (l' : list B), length l = length l' -> map snd (combine l l') = l'.
Proof. induction l as [|a l IH]; intros [|b l'] H; cbn in *; try lia; [reflexivity|]. f_equal. apply IH. lia. Qed.

Lemma single_checks {F : Field} {V : VSpace F} pc (g : BPGens V) N vt : well_sized N vt -> (batch_verify [vt] [] pc g = Some (Ok tt) <-> checks pc g N vt).
Proof.
  intros (_ & Hl). unfold batch_verify. cbn [batch_acc]. rewrite Hl. replace (2 + 2 * N - 2)%nat with (N * 2)%nat by lia. rewrite Nat.div_mul by lia. reflexivity.
Qed.
Lemma verify_single {F : Field} {V : VSpace F} (E : TrEnv V) dbg rr pf pc g t : r1cs_verify E dbg rr pf pc g t = Some (Ok tt) <-> exists vt, v_scalars_and_points E dbg rr pf t = Some (Ok vt) /\ batch_verify [vt] [] pc g = Some (Ok tt).
Proof.
  split.
  - unfold r1cs_verify. destruct (v_scalars_and_points E dbg rr pf t) as [[vt|]|]; try discriminate. intros H. exists vt. split; [reflexivity|exact H].
  - intros (vt & H & Hb). unfold r1cs_verify. rewrite H. exact Hb.
Qed.
Lemma batch_capacity {F : Field} {V : VSpace F} pc (g : BPGens V) N vt : checks pc g N vt -> (N <= gens_capacity g)%nat.
Proof. unfold checks, mega_check. destruct (Nat.ltb_spec (gens_capacity g) N); [discriminate|auto]. Qed.

Section Lemmas.
  Context {F0 F1 : PField} {P0 : SWCurve F1 F0} {P1 : SWCurve F0 F1} {FC : Field} {C : VSpace FC}.
  Variables (E0 : TrEnv P0) (E1 : TrEnv P1) (enc0 : P0 -> bytes) (enc1 : P1 -> bytes) (enc_pk : C -> bytes) (sha3 : bytes -> bytes).

  Lemma pour_split dbg L (prm : SRParams P0 P1) t rr0 rr1 (po : Pour P0 P1 C) : pour_verify E0 E1 enc0 enc1 enc_pk sha3 dbg L prm t bench_transcript rr0 rr1 po =
    do a <- pour_entry0 E0 enc1 enc_pk sha3 dbg L prm t po rr0; do b <- pour_entry1 E1 enc0 dbg L prm t po rr1; Some (a, b).
  Proof.
    unfold pour_verify, pour_entry0, pour_entry1, pour_paths. destruct (verification_commitments t (po_path0 po)) as [p0|]; [|reflexivity]. cbn [opt_bind]. destruct (verification_commitments t (po_path1 po)) as [p1|]; [|reflexivity]. cbn [opt_bind].
    destruct (pour_even_circuit _ _ _ _ _ _ _ _ _ _ _ _) as [t0|]; [|reflexivity]. cbn [opt_bind]. destruct (unwrap _) as [a|]; [|reflexivity]. cbn [opt_bind].
    destruct (pour_odd_circuit _ _ _ _ _ _ _ _) as [t1|]; [|reflexivity]. cbn [opt_bind]. destruct (unwrap _) as [b|]; reflexivity.
  Qed.

  Lemma verify_levels_def {F : Field} {V : VSpace F} (E : TrEnv V) : forall lvs ns (t t' : VState V), Forall2 level_uses lvs ns -> verify_levels E t lvs = Some t' -> v_def t' = v_def t.
  Proof.
    induction lvs as [|lv lvs IH]; intros ns t t' Hn Hv; cbn [verify_levels] in Hv.
    - apply Some_inj in Hv. congruence.
    - inversion Hn as [|? n ? ns' H1 H2]; subst. destruct (verify_level E t lv) as [t1|] eqn:EL; [|discriminate]. cbn [opt_bind] in Hv. rewrite (IH _ _ _ H2 Hv).
      unfold verify_level in EL. unfold level_uses, src_size in H1. destruct (vl_src lv) as [xs|[d c]].
      + destruct (vrun E _ t) as [[t2 a]|] eqn:R; [|discriminate]. cbn [opt_bind fst] in EL. apply Some_inj in EL. subst t2. eapply vrun_uses_def; [|exact R]. apply H1. apply map_length.
      + unfold v_commit_vec in EL. cbn [fst snd] in EL. destruct (vrun E _ _) as [[t2 a]|] eqn:R; [|discriminate]. cbn [opt_bind fst] in EL. apply Some_inj in EL. subst t2.
        eapply vrun_uses_def in R; [exact R|]. apply H1. rewrite !map_length, seq_length. reflexivity.
  Qed.
  Lemma even_gadget_def L (prm : SRParams P0 P1) t p (t0 t0' : VState P0) : root_width L t -> countable (odd_p prm) -> even_gadget E0 enc1 L prm t p t0 = Some t0' -> v_def t0' = v_def t0.
  Proof.
    intros Hw Hc H. unfold even_gadget in H. destruct (root_is_odd p) as [o|]; [|discriminate]. cbn [opt_bind] in H. destruct (even_levels enc1 L prm t p o) as [lvs|] eqn:El; [|discriminate]. cbn [opt_bind] in H.
    eapply verify_levels_def; [|exact H]. unfold even_levels in El. eapply (all_some_imap _ _ (fun _ => level_halves L (windows (S := F1)))); [|exact El].
    intros i c lv Hlv. cbv beta in Hlv. destruct ((i =? 0)%nat && negb o)%bool.
    - destruct (root_xs_even prm t 0) as [xs|] eqn:Ex; [|discriminate]. cbn [option_map opt_bind] in Hlv. destruct (nth_error (pa_odd p) _) as [ch|]; [|discriminate]. cbn [opt_bind] in Hlv. apply Some_inj in Hlv. subst lv.
      intros vars Hl. cbn [src_size vl_src vl_gadget] in *. rewrite (root_even_length _ _ _ _ _ Hw Ex) in Hl. rewrite <- Hl. apply uses_single. exact Hc.
    - cbn [opt_bind] in Hlv. destruct (nth_error (pa_odd p) _) as [ch|]; [|discriminate]. cbn [opt_bind] in Hlv. apply Some_inj in Hlv. subst lv.
      intros vars Hl. cbn [src_size vl_src vl_gadget] in *. rewrite <- Hl. apply uses_single. exact Hc.
  Qed.
  Lemma odd_gadget_def L (prm : SRParams P0 P1) t p (t1 t1' : VState P1) : root_width L t -> countable (even_p prm) -> odd_gadget E1 enc0 L prm t p t1 = Some t1' -> v_def t1' = v_def t1.
  Proof.
    intros Hw Hc H. unfold odd_gadget in H. destruct (root_is_odd p) as [o|]; [|discriminate]. cbn [opt_bind] in H. destruct (odd_levels enc0 L prm t p o) as [lvs|] eqn:El; [|discriminate]. cbn [opt_bind] in H.
    eapply verify_levels_def; [|exact H]. unfold odd_levels in El. eapply (all_some_imap _ _ (fun _ => level_halves L (windows (S := F0)))); [|exact El].
    intros i c lv Hlv. cbv beta in Hlv. destruct (if (i <? length (pa_odd p) - 1)%nat then _ else _) as [ch|]; [|discriminate]. cbn [opt_bind] in Hlv. destruct ((i =? 0)%nat && o)%bool.
    - destruct (root_xs_odd prm t 0) as [xs|] eqn:Ex; [|discriminate]. cbn [option_map opt_bind] in Hlv. apply Some_inj in Hlv. subst lv.
      intros vars Hl. cbn [src_size vl_src vl_gadget] in *. rewrite (root_odd_length _ _ _ _ _ Hw Ex) in Hl. rewrite <- Hl. apply uses_single. exact Hc.
    - cbn [opt_bind] in Hlv. apply Some_inj in Hlv. subst lv. intros vars Hl. cbn [src_size vl_src vl_gadget] in *. rewrite <- Hl. apply uses_single. exact Hc.
  Qed.
  Lemma mint_def dbg c (t t' : VState P0) v : verify_mint E0 dbg c t = Some (t', v) -> v_def t' = v_def t.
  Proof.
    unfold verify_mint. destruct (v_commit_vec E0 t 2 c) as [t1 us] eqn:Ec. assert (D : v_def t1 = v_def t) by (unfold v_commit_vec in Ec; injection Ec as <- _; reflexivity).
    destruct (nth_error us 0) as [v'|]; [|discriminate]. cbn [opt_bind]. destruct (vrun E0 _ t1) as [[t2 res]|] eqn:R; [|discriminate]. cbn [opt_bind]. destruct res; [|discriminate]. intros H. apply Some_inj in H. injection H as <- _.
    eapply vrun_uses_def in R; [congruence|]. apply uses_range.
  Qed.
  Lemma spend_def L (prm : SRParams P0 P1) (t : CurveTree P0 P1) pk p (t0 t0' : VState P0) v : root_width L t -> countable (odd_p prm) -> verify_spend_even E0 enc1 enc_pk sha3 L prm t pk p t0 = Some (t0', v) -> v_def t0' = v_def t0.
  Proof.
    intros Hw Hc. unfold verify_spend_even. destruct (even_gadget E0 enc1 L prm t p t0) as [te|] eqn:Eg; [|discriminate]. cbn [opt_bind]. pose proof (even_gadget_def _ _ _ _ _ _ Hw Hc Eg) as D.
    destruct (v_commit_vec E0 te L (pa_selected p)) as [t1 us] eqn:Ec. assert (D1 : v_def t1 = v_def te) by (unfold v_commit_vec in Ec; injection Ec as <- _; reflexivity).
    destruct (nth_error us 1) as [v1|]; [|discriminate]. cbn [opt_bind]. destruct (nth_error us 0) as [v2|]; [|discriminate]. cbn [opt_bind]. intros H. apply Some_inj in H. injection H as <- _. cbn [v_constrain v_def]. congruence.
  Qed.
  Lemma pour_even_def dbg L (prm : SRParams P0 P1) t po p0 p1 (t0 t0' : VState P0) : root_width L t -> countable (odd_p prm) -> pour_even_circuit E0 enc1 enc_pk sha3 dbg L prm t po p0 p1 t0 = Some t0' -> v_def t0' = v_def t0.
  Proof.
    intros Hw Hc. unfold pour_even_circuit. destruct (verify_mint E0 dbg (po_minted0 po) _) as [[a v1]|] eqn:R1; [|discriminate]. cbn [opt_bind]. destruct (verify_mint E0 dbg (po_minted1 po) _) as [[b v2]|] eqn:R2; [|discriminate]. cbn [opt_bind].
    destruct (verify_spend_even E0 enc1 enc_pk sha3 L prm t (po_pk0 po) p0 b) as [[c v3]|] eqn:R3; [|discriminate]. cbn [opt_bind]. destruct (verify_spend_even E0 enc1 enc_pk sha3 L prm t (po_pk1 po) p1 c) as [[e v4]|] eqn:R4; [|discriminate]. cbn [opt_bind].
    intros H. apply Some_inj in H. subst t0'. cbn [v_constrain v_def]. rewrite (spend_def _ _ _ _ _ _ _ _ Hw Hc R4), (spend_def _ _ _ _ _ _ _ _ Hw Hc R3), (mint_def _ _ _ _ _ R2). exact (mint_def _ _ _ _ _ R1).
  Qed.
  Lemma pour_odd_def L (prm : SRParams P0 P1) t p0 p1 (t1 t1' : VState P1) : root_width L t -> countable (even_p prm) -> pour_odd_circuit E1 enc0 L prm t p0 p1 t1 = Some t1' -> v_def t1' = v_def t1.
  Proof.
    intros Hw Hc. unfold pour_odd_circuit. destruct (odd_gadget E1 enc0 L prm t p0 t1) as [a|] eqn:R1; [|discriminate]. cbn [opt_bind]. intros R2. rewrite (odd_gadget_def _ _ _ _ _ _ Hw Hc R2). exact (odd_gadget_def _ _ _ _ _ _ Hw Hc R1).
  Qed.

  (** padded sizes of the two circuits (no code modelled) *)
  Definition pour_pad0 (h L : nat) : nat := next_power_of_two (pour_size h L (windows (S := F1))).
  (** (no code modelled) *)
  Definition pour_pad1 (h L : nat) : nat := next_power_of_two ((h + 1) / 2 * (2 * L + 21 * windows (S := F0) + 12)).
  Lemma entry0_sized h dbg L (prm : SRParams P0 P1) t (po : Pour P0 P1 C) rr0 rr1 vt : root_width L t -> countable (odd_p prm) -> (L <= 128)%nat \/ (2 <= h)%nat -> pour_shape h (po, rr0, rr1) ->
    pour_entry0 E0 enc1 enc_pk sha3 dbg L prm t po rr0 = Some vt -> well_sized (pour_pad0 h L) vt.
  Proof.
    intros Hw Hc Hd (H0 & H1 & HR & _). unfold pour_entry0, pour_paths. destruct (verification_commitments t (po_path0 po)) as [p0|] eqn:Hp0; [|discriminate]. cbn [opt_bind]. destruct (verification_commitments t (po_path1 po)) as [p1|] eqn:Hp1; [|discriminate]. cbn [opt_bind].
    destruct (pour_even_circuit _ _ _ _ _ _ _ _ _ _ _ _) as [t0|] eqn:Hv; [|discriminate]. cbn [opt_bind]. intros U. apply unwrap_ok in U.
    pose proof (tuple_well_sized E0 _ _ _ _ _ U HR (pour_even_def _ _ _ _ _ _ _ _ _ Hw Hc Hv)) as Hs. rewrite pour_even_dim in Hv.
    rewrite <- (completed_length _ _ _ Hp0) in H0. rewrite <- (completed_length _ _ _ Hp1) in H1.
    destruct (pour_even_size E0 enc1 enc_pk sha3 L dbg L prm t _ _ _ _ _ _ _ _ h _ _ Hw Hc ltac:(destruct Hd as [Hd|Hd]; [left; exact Hd|right; split; [lia|exact Hd]]) Hp0 Hp1 H0 H1 Hv) as [Z _]. rewrite Z in Hs. exact Hs.
  Qed.
  Lemma entry1_sized h dbg L (prm : SRParams P0 P1) t (po : Pour P0 P1 C) rr0 rr1 vt : root_width L t -> countable (even_p prm) -> pour_shape h (po, rr0, rr1) ->
    pour_entry1 E1 enc0 dbg L prm t po rr1 = Some vt -> well_sized (pour_pad1 h L) vt.
  Proof.
    intros Hw Hc (H0 & H1 & _ & HR). unfold pour_entry1, pour_paths. destruct (verification_commitments t (po_path0 po)) as [p0|] eqn:Hp0; [|discriminate]. cbn [opt_bind]. destruct (verification_commitments t (po_path1 po)) as [p1|] eqn:Hp1; [|discriminate]. cbn [opt_bind].
    destruct (pour_odd_circuit _ _ _ _ _ _ _ _) as [t1|] eqn:Hv; [|discriminate]. cbn [opt_bind]. intros U. apply unwrap_ok in U.
    pose proof (tuple_well_sized E1 _ _ _ _ _ U HR (pour_odd_def _ _ _ _ _ _ _ Hw Hc Hv)) as Hs.
    rewrite <- (completed_length _ _ _ Hp0) in H0. rewrite <- (completed_length _ _ _ Hp1) in H1.
    destruct (pour_odd_size E1 enc0 L prm t _ _ _ _ h _ _ Hw Hc Hp0 Hp1 H0 H1 Hv) as [Z _]. rewrite Z in Hs. exact Hs.
  Qed.

  Lemma entry0_iff dbg L (prm : SRParams P0 P1) t (po : Pour P0 P1 C) rr vt : pour_entry0 E0 enc1 enc_pk sha3 dbg L prm t po rr = Some vt <->
    exists p0 p1 t0, verification_commitments t (po_path0 po) = Some p0 /\ verification_commitments t (po_path1 po) = Some p1 /\
      pour_even_circuit E0 enc1 enc_pk sha3 dbg L prm t po p0 p1 (v_new bench_transcript) = Some t0 /\ v_scalars_and_points E0 dbg rr (po_even po) t0 = Some (Ok vt).
  Proof.
    unfold pour_entry0, pour_paths. generalize (v_new (V := P0) bench_transcript). intros tv. split.
    - destruct (verification_commitments t (po_path0 po)) as [p0|]; [|discriminate]. cbn [opt_bind]. destruct (verification_commitments t (po_path1 po)) as [p1|]; [|discriminate]. cbn [opt_bind].
      destruct (pour_even_circuit E0 enc1 enc_pk sha3 dbg L prm t po p0 p1 tv) as [t0|]eqn:He; [|discriminate]. cbn [opt_bind]. intros U. apply unwrap_ok in U. exists p0, p1, t0. split; [reflexivity|]. split; [reflexivity|]. split; [exact He|exact U].
    - intros (p0 & p1 & t0 & -> & -> & He & U). cbn [opt_bind]. rewrite He. cbn [opt_bind]. rewrite U. reflexivity.
  Qed.
  Lemma entry1_iff dbg L (prm : SRParams P0 P1) t (po : Pour P0 P1 C) rr vt : pour_entry1 E1 enc0 dbg L prm t po rr = Some vt <->
    exists p0 p1 t1, verification_commitments t (po_path0 po) = Some p0 /\ verification_commitments t (po_path1 po) = Some p1 /\
      pour_odd_circuit E1 enc0 L prm t p0 p1 (v_new bench_transcript) = Some t1 /\ v_scalars_and_points E1 dbg rr (po_odd po) t1 = Some (Ok vt).
  Proof.
    unfold pour_entry1, pour_paths. generalize (v_new (V := P1) bench_transcript). intros tv. split.
    - destruct (verification_commitments t (po_path0 po)) as [p0|]; [|discriminate]. cbn [opt_bind]. destruct (verification_commitments t (po_path1 po)) as [p1|]; [|discriminate]. cbn [opt_bind].
      destruct (pour_odd_circuit E1 enc0 L prm t p0 p1 tv) as [t0|]eqn:He; [|discriminate]. cbn [opt_bind]. intros U. apply unwrap_ok in U. exists p0, p1, t0. split; [reflexivity|]. split; [reflexivity|]. split; [exact He|exact U].
    - intros (p0 & p1 & t0 & -> & -> & He & U). cbn [opt_bind]. rewrite He. cbn [opt_bind]. rewrite U. reflexivity.
  Qed.
  (** a payment is valid if both of its entries are accepted in batches of one *)
  Lemma valid_entries dbg L (prm : SRParams P0 P1) t (po : Pour P0 P1 C) rr0 rr1 : pour_valid E0 E1 enc0 enc1 enc_pk sha3 dbg L prm t (po, rr0, rr1) <->
    exists vt0 vt1, pour_entry0 E0 enc1 enc_pk sha3 dbg L prm t po rr0 = Some vt0 /\ pour_entry1 E1 enc0 dbg L prm t po rr1 = Some vt1 /\
      batch_verify [vt0] [] (sl_pc (even_p prm)) (sl_bp (even_p prm)) = Some (Ok tt) /\ batch_verify [vt1] [] (sl_pc (odd_p prm)) (sl_bp (odd_p prm)) = Some (Ok tt).
  Proof.
    unfold pour_valid. split.
    - intros (p0 & p1 & t0 & t1 & Hp0 & Hp1 & He & V0 & Ho & V1). apply verify_single in V0. destruct V0 as (vt0 & S0 & B0). apply verify_single in V1. destruct V1 as (vt1 & S1 & B1).
      exists vt0, vt1. split; [apply entry0_iff; exists p0, p1, t0; split; [exact Hp0|]; split; [exact Hp1|]; split; [exact He|exact S0]|]. split; [apply entry1_iff; exists p0, p1, t1; split; [exact Hp0|]; split; [exact Hp1|]; split; [exact Ho|exact S1]|].
      split; [exact B0|exact B1].
    - intros (vt0 & vt1 & Q0 & Q1 & B0 & B1). apply entry0_iff in Q0. destruct Q0 as (p0 & p1 & t0 & Hp0 & Hp1 & He & S0). apply entry1_iff in Q1. destruct Q1 as (p0' & p1' & t1 & Hp0' & Hp1' & Ho & S1).
      rewrite Hp0 in Hp0'. rewrite Hp1 in Hp1'. apply Some_inj in Hp0', Hp1'. subst p0' p1'.
      exists p0, p1, t0, t1. split; [exact Hp0|]. split; [exact Hp1|]. split; [exact He|]. split; [apply verify_single; exists vt0; split; [exact S0|exact B0]|]. split; [exact Ho|]. apply verify_single. exists vt1. split; [exact S1|exact B1].
  Qed.
End Lemmas.

(** ** C84: the bench of payments *)
(** The two branches of the bench verify the same, honest payments or not. *)
Theorem C84_branches_agree : forall (F0 F1 : PField) (P0 : SWCurve F1 F0) (P1 : SWCurve F0 F1) (FC : Field) (C : VSpace FC) (E0 : TrEnv P0) (E1 : TrEnv P1) (enc0 : P0 -> bytes) (enc1 : P1 -> bytes) (enc_pk : C -> bytes) (sha3 : bytes -> bytes)
    dbg L (prm : SRParams P0 P1) t (jobs : list (Pour P0 P1 C * F0 * F1)) ws0 ws1,
  pours_sequential E0 E1 enc0 enc1 enc_pk sha3 dbg L prm t jobs ws0 ws1 = pours_parallel E0 E1 enc0 enc1 enc_pk sha3 dbg L prm t jobs ws0 ws1.
Proof.
  intros. unfold pours_sequential, pours_parallel.
  rewrite (map_ext (fun '(po, rr0, rr1) => pour_verify E0 E1 enc0 enc1 enc_pk sha3 dbg L prm t bench_transcript rr0 rr1 po)
    (fun x => do a <- (fun '(po, rr0, _) => pour_entry0 E0 enc1 enc_pk sha3 dbg L prm t po rr0) x; do b <- (fun '(po, _, rr1) => pour_entry1 E1 enc0 dbg L prm t po rr1) x; Some (a, b))) by (intros [[po rr0] rr1]; apply pour_split).
  rewrite all_some_pairs. destruct (all_some (map (fun '(po, rr0, _) => pour_entry0 E0 enc1 enc_pk sha3 dbg L prm t po rr0) jobs)) as [vts0|] eqn:X0; [|reflexivity]. cbn [opt_bind].
  destruct (all_some (map (fun '(po, _, rr1) => pour_entry1 E1 enc0 dbg L prm t po rr1) jobs)) as [vts1|] eqn:X1; cbn [opt_bind].
  - apply all_some_len in X0, X1. rewrite combine_fst, combine_snd by congruence. reflexivity.
  - destruct (unwrap _); reflexivity.
Qed.

(** A single signed payment is accepted exactly if it decodes, the check of the signatures
    does not panic, and the payment is valid. *)
Theorem C84_single : forall (F0 F1 : PField) (P0 : SWCurve F1 F0) (P1 : SWCurve F0 F1) (FC : Field) (C : VSpace FC) (E0 : TrEnv P0) (E1 : TrEnv P1) (enc0 : P0 -> bytes) (enc1 : P1 -> bytes) (sg : SigScheme FC C) (enc_pk : C -> bytes) (sha3 : bytes -> bytes)
    dbg L (prm : SRParams P0 P1) t dec_pour tx rr0 rr1,
  bench_single E0 E1 enc0 enc1 sg enc_pk sha3 dbg L prm t dec_pour tx rr0 rr1 = Some tt <->
  exists po rest, dec_pour (tx_pour tx) = Some (po, rest) /\ verify_signatures sg tx (po_pk0 po) (po_pk1 po) = Some tt /\ pour_valid E0 E1 enc0 enc1 enc_pk sha3 dbg L prm t (po, rr0, rr1).
Proof.
  intros. unfold bench_single, tx_verify. split.
  - intros H. destruct (dec_pour (tx_pour tx)) as [[po rest]|]; [|discriminate H]. cbn [opt_bind] in H. destruct (verify_signatures sg tx _ _) as [[]|] eqn:Hs; [|discriminate H]. cbn [opt_bind] in H. exists po, rest. split; [reflexivity|]. split; [exact Hs|].
    rewrite pour_split in H. apply valid_entries. destruct (pour_entry0 _ _ _ _ _ _ _ _ _ _) as [vt0|]; [|discriminate H]. cbn [opt_bind] in H. destruct (pour_entry1 _ _ _ _ _ _ _ _) as [vt1|]; [|discriminate H]. cbn [opt_bind] in H.
    destruct (unwrap (batch_verify [vt0] _ _ _)) as [[]|] eqn:B0; [|discriminate H]. cbn [opt_bind] in H. apply unwrap_ok in H, B0. exists vt0, vt1. auto.
  - intros (po & rest & -> & Hs & Hv). cbn [opt_bind]. rewrite Hs. cbn [opt_bind]. rewrite pour_split. apply valid_entries in Hv as (vt0 & vt1 & -> & -> & B0 & B1). cbn [opt_bind]. rewrite B0. cbn [unwrap opt_bind]. rewrite B1. reflexivity.
Qed.

(** Valid payments with paths of the same height are accepted together, whatever weights the
    two batches draw. *)
Section Batches.
  Context {F0 F1 : PField} {P0 : SWCurve F1 F0} {P1 : SWCurve F0 F1} {FC : Field} {C : VSpace FC}.
  Variables (E0 : TrEnv P0) (E1 : TrEnv P1) (enc0 : P0 -> bytes) (enc1 : P1 -> bytes) (enc_pk : C -> bytes) (sha3 : bytes -> bytes).
  Lemma jobs_tuples dbg L h (prm : SRParams P0 P1) t : root_width L t -> countable (even_p prm) -> countable (odd_p prm) -> (L <= 128)%nat \/ (2 <= h)%nat ->
    forall (jobs : list (Pour P0 P1 C * F0 * F1)) vts, Forall (pour_shape h) jobs -> all_some (map (fun '(po, rr0, rr1) => pour_verify E0 E1 enc0 enc1 enc_pk sha3 dbg L prm t bench_transcript rr0 rr1 po) jobs) = Some vts ->
    Forall (well_sized (pour_pad0 (F1 := F1) h L)) (map fst vts) /\ Forall (well_sized (pour_pad1 (F0 := F0) h L)) (map snd vts) /\
    (Forall (pour_valid E0 E1 enc0 enc1 enc_pk sha3 dbg L prm t) jobs <->
      Forall (checks (sl_pc (even_p prm)) (sl_bp (even_p prm)) (pour_pad0 (F1 := F1) h L)) (map fst vts) /\ Forall (checks (sl_pc (odd_p prm)) (sl_bp (odd_p prm)) (pour_pad1 (F0 := F0) h L)) (map snd vts)).
  Proof.
    intros Hw C0 C1 Hd. induction jobs as [|[[po rr0] rr1] jobs IH]; intros vts Hs Hv; cbn [map all_some] in Hv.
    - apply Some_inj in Hv. subst vts. cbn [map]. split; [constructor|]. split; [constructor|]. split; [split; constructor|constructor].
    - apply Forall_cons_iff in Hs as [Hs1 Hs]. rewrite pour_split in Hv. destruct (pour_entry0 _ _ _ _ _ _ _ _ _ _) as [vt0|] eqn:Q0; [|discriminate Hv]. cbn [opt_bind] in Hv. destruct (pour_entry1 _ _ _ _ _ _ _ _) as [vt1|] eqn:Q1; [|discriminate Hv]. cbn [opt_bind] in Hv.
      destruct (all_some _) as [vts'|] eqn:Q; [|discriminate Hv]. cbn [opt_bind] in Hv. apply Some_inj in Hv. subst vts. destruct (IH _ Hs eq_refl) as (W0 & W1 & K). cbn [map fst snd].
      pose proof (entry0_sized E0 enc1 enc_pk sha3 h dbg L prm t po rr0 rr1 vt0 Hw C1 Hd Hs1 Q0) as Z0. pose proof (entry1_sized E1 enc0 h dbg L prm t po rr0 rr1 vt1 Hw C0 Hs1 Q1) as Z1.
      split; [constructor; assumption|]. split; [constructor; assumption|]. rewrite !Forall_cons_iff, K, valid_entries, Q0, Q1, <- (single_checks _ _ _ _ Z0), <- (single_checks _ _ _ _ Z1). split.
      + intros ((a & b & A & B & B0 & B1) & K0 & K1). apply Some_inj in A, B. subst a b. tauto.
      + intros ((B0 & K0) & (B1 & K1)). split; [exists vt0, vt1; tauto|tauto].
  Qed.
End Batches.
Theorem C84_batch_complete : forall (F0 F1 : PField) (P0 : SWCurve F1 F0) (P1 : SWCurve F0 F1) (FC : Field) (C : VSpace FC) (E0 : TrEnv P0) (E1 : TrEnv P1) (enc0 : P0 -> bytes) (enc1 : P1 -> bytes) (enc_pk : C -> bytes) (sha3 : bytes -> bytes)
    bp0 pc0 delta0 bp1 pc1 delta1 (prm : SRParams P0 P1) (L M : nat) (set : list P0) fuel height t dbg h (jobs : list (Pour P0 P1 C * F0 * F1)) ws0 ws1,
  sl_new bp0 pc0 delta0 = Some (even_p prm) -> sl_new bp1 pc1 delta1 = Some (odd_p prm) -> gens_wf bp0 -> gens_wf bp1 -> from_set fuel L M prm set height = TOk t ->
  (L <= 128)%nat \/ (2 <= h)%nat -> Forall (pour_shape h) jobs -> length jobs = S (length ws0) -> length jobs = S (length ws1) ->
  Forall (pour_valid E0 E1 enc0 enc1 enc_pk sha3 dbg L prm t) jobs ->
  pours_sequential E0 E1 enc0 enc1 enc_pk sha3 dbg L prm t jobs ws0 ws1 = Some tt.
Proof.
  intros F0 F1 P0 P1 FC C E0 E1 enc0 enc1 enc_pk sha3 bp0 pc0 delta0 bp1 pc1 delta1 prm L M set fuel height t dbg h jobs ws0 ws1 Hsl0 Hsl1 W0 W1 Ht Hd Hs N0 N1 Hv.
  pose proof (from_set_width _ _ _ _ _ _ _ Ht) as Hw. pose proof (sl_new_countable _ _ _ _ Hsl0) as C0. pose proof (sl_new_countable _ _ _ _ Hsl1) as C1.
  destruct (sl_new_good _ _ _ _ Hsl0) as (_ & Eb0 & Ep0 & _), (sl_new_good _ _ _ _ Hsl1) as (_ & Eb1 & Ep1 & _). rewrite <- Eb0 in W0. rewrite <- Eb1 in W1.
  unfold pours_sequential. destruct (all_some _) as [vts|] eqn:Q.
  - cbn [opt_bind]. pose proof (all_some_len _ _ _ Q) as Hl. destruct (jobs_tuples E0 E1 enc0 enc1 enc_pk sha3 dbg L h prm t Hw C0 C1 Hd jobs vts Hs Q) as (Z0 & Z1 & K). apply K in Hv as [K0 K1]. destruct vts as [|[vt0 vt1] vts]; [cbn [length] in Hl; lia|]. cbn [map fst snd length] in *.
    rewrite (batch_complete _ _ (pour_pad0 (F1 := F1) h L)); [|exact W0|apply Forall_cons_iff in K0 as [K0 _]; exact (batch_capacity _ _ _ _ K0)|exact Z0|rewrite map_length; lia|exact K0]. cbn [unwrap opt_bind].
    rewrite (batch_complete _ _ (pour_pad1 (F0 := F0) h L)); [reflexivity|exact W1|apply Forall_cons_iff in K1 as [K1 _]; exact (batch_capacity _ _ _ _ K1)|exact Z1|rewrite map_length; lia|exact K1].
  - exfalso. clear - Hv Q. induction jobs as [|[[po rr0] rr1] jobs IH]; cbn [map all_some] in Q; [discriminate Q|]. apply Forall_cons_iff in Hv as [Hv1 Hv]. apply valid_entries in Hv1 as (vt0 & vt1 & Q0 & Q1 & _).
    rewrite pour_split, Q0, Q1 in Q. cbn [opt_bind] in Q. destruct (all_some _); [discriminate Q|]. apply IH; [exact Hv|reflexivity].
Qed.

(** A block with an invalid payment is refused, except for at most one value of one of the
    random weights (given all the others). *)
Theorem C84_batch_sound : forall (F0 F1 : PField) (P0 : SWCurve F1 F0) (P1 : SWCurve F0 F1) (FC : Field) (C : VSpace FC) (E0 : TrEnv P0) (E1 : TrEnv P1) (enc0 : P0 -> bytes) (enc1 : P1 -> bytes) (enc_pk : C -> bytes) (sha3 : bytes -> bytes)
    bp0 pc0 delta0 bp1 pc1 delta1 (prm : SRParams P0 P1) (L M : nat) (set : list P0) fuel height t dbg h (jobs : list (Pour P0 P1 C * F0 * F1)),
  sl_new bp0 pc0 delta0 = Some (even_p prm) -> sl_new bp1 pc1 delta1 = Some (odd_p prm) -> gens_wf bp0 -> gens_wf bp1 -> from_set fuel L M prm set height = TOk t ->
  (L <= 128)%nat \/ (2 <= h)%nat -> Forall (pour_shape h) jobs -> (pour_pad0 (F1 := F1) h L <= gens_capacity bp0)%nat -> (pour_pad1 (F0 := F0) h L <= gens_capacity bp1)%nat ->
  ~ Forall (pour_valid E0 E1 enc0 enc1 enc_pk sha3 dbg L prm t) jobs ->
  let accepts ws0 ws1 := pours_sequential E0 E1 enc0 enc1 enc_pk sha3 dbg L prm t jobs ws0 ws1 = Some tt in
  (forall ws0 ws1, length jobs = S (length ws0) -> length jobs = S (length ws1) -> ~ accepts ws0 ws1) \/
  (exists j, (S j < length jobs)%nat /\ forall ws0 ws1, length jobs = S (length ws0) -> length jobs = S (length ws1) -> forall c c', accepts (upd ws0 j (fun _ => c)) ws1 -> accepts (upd ws0 j (fun _ => c')) ws1 -> c = c') \/
  (exists j, (S j < length jobs)%nat /\ forall ws0 ws1, length jobs = S (length ws0) -> length jobs = S (length ws1) -> forall c c', accepts ws0 (upd ws1 j (fun _ => c)) -> accepts ws0 (upd ws1 j (fun _ => c')) -> c = c').
Proof.
  intros F0 F1 P0 P1 FC C E0 E1 enc0 enc1 enc_pk sha3 bp0 pc0 delta0 bp1 pc1 delta1 prm L M set fuel height t dbg h jobs Hsl0 Hsl1 W0 W1 Ht Hd Hs N0 N1 Hv accepts.
  pose proof (from_set_width _ _ _ _ _ _ _ Ht) as Hw. pose proof (sl_new_countable _ _ _ _ Hsl0) as C0. pose proof (sl_new_countable _ _ _ _ Hsl1) as C1.
  destruct (sl_new_good _ _ _ _ Hsl0) as (_ & Eb0 & Ep0 & _), (sl_new_good _ _ _ _ Hsl1) as (_ & Eb1 & Ep1 & _). rewrite <- Eb0 in W0, N0. rewrite <- Eb1 in W1, N1.
  destruct (all_some (map (fun '(po, rr0, rr1) => pour_verify E0 E1 enc0 enc1 enc_pk sha3 dbg L prm t bench_transcript rr0 rr1 po) jobs)) as [vts|] eqn:Q.
  2: { left. intros ws0 ws1 _ _ H. unfold accepts, pours_sequential in H. rewrite Q in H. discriminate H. }
  assert (Spl : forall ws0 ws1, accepts ws0 ws1 -> batch_verify (map fst vts) ws0 (sl_pc (even_p prm)) (sl_bp (even_p prm)) = Some (Ok tt) /\ batch_verify (map snd vts) ws1 (sl_pc (odd_p prm)) (sl_bp (odd_p prm)) = Some (Ok tt)).
  { intros ws0 ws1 H. unfold accepts, pours_sequential in H. rewrite Q in H. cbn [opt_bind] in H. destruct (unwrap (batch_verify (map fst vts) _ _ _)) as [[]|] eqn:B0; [|discriminate H]. cbn [opt_bind] in H. apply unwrap_ok in H, B0. auto. }
  pose proof (all_some_len _ _ _ Q) as Hl. destruct (jobs_tuples E0 E1 enc0 enc1 enc_pk sha3 dbg L h prm t Hw C0 C1 Hd jobs vts Hs Q) as (Z0 & Z1 & K).
  assert (Dec : forall F (V : VSpace F) pc (g : BPGens V) N (l : list (VTuple V)), {Forall (checks pc g N) l} + {~ Forall (checks pc g N) l}).
  { intros F V pc g N l. apply Forall_dec. intros x. unfold checks. destruct (mega_check _ _ _ _ _ _) as [[[]|]|]; [left; reflexivity|right; discriminate|right; discriminate]. }
  destruct vts as [|[vt0 vt1] vts]; [destruct jobs; [exfalso; apply Hv; constructor|discriminate Hl]|]. cbn [map fst snd length] in *.
  destruct (Dec _ _ (sl_pc (even_p prm)) (sl_bp (even_p prm)) (pour_pad0 (F1 := F1) h L) (vt0 :: map fst vts)) as [A|A].
  - destruct (Dec _ _ (sl_pc (odd_p prm)) (sl_bp (odd_p prm)) (pour_pad1 (F0 := F0) h L) (vt1 :: map snd vts)) as [B|B]; [exfalso; apply Hv, K; auto|].
    destruct (batch_sound _ _ _ _ _ W1 N1 Z1 B) as [R|(j & Hj & R)].
    + left. intros ws0 ws1 _ Hw1 H. apply Spl in H as [_ H]. apply (R ws1); [rewrite map_length; lia|exact H].
    + right. right. rewrite map_length in Hj. exists j. split; [lia|]. intros ws0 ws1 _ Hw1 c c' H H'. apply Spl in H as [_ H], H' as [_ H']. apply (R ws1); [rewrite map_length; lia|exact H|exact H'].
  - destruct (batch_sound _ _ _ _ _ W0 N0 Z0 A) as [R|(j & Hj & R)].
    + left. intros ws0 ws1 Hw0 _ H. apply Spl in H as [H _]. apply (R ws0); [rewrite map_length; lia|exact H].
    + right. left. rewrite map_length in Hj. exists j. split; [lia|]. intros ws0 ws1 Hw0 _ c c' H H'. apply Spl in H as [H _], H' as [H' _]. apply (R ws0); [rewrite map_length; lia|exact H|exact H'].
Qed.

(** ** Honest blocks *)
Section Honest.
  Context {F0 F1 : PField} {P0 : SWCurve F1 F0} {P1 : SWCurve F0 F1} {FC : Field} {C : VSpace FC}.
  Variables (E0 : TrEnv P0) (E1 : TrEnv P1) (enc0 : P0 -> bytes) (enc1 : P1 -> bytes) (sg : SigScheme FC C) (enc_pk : C -> bytes) (enc_sc : FC -> bytes) (sha3 : bytes -> bytes).
  (** The payment is made by the code from two coins of the tree, its values balance, and no
      validated point of its proofs is the identity (vocabulary of statements, no code
      modelled). *)
  Definition honest_payment (oc : bool) (L : nat) (prm : SRParams P0 P1) (set : list P0) (t : CurveTree P0 P1) (i0 i1 : Spending (F0 := F0) (F1 := F1) C) (po : Pour P0 P1 C) : Prop :=
    exists m0 m1 dbg s0' s1' path0 path1 c0 c1 dbg0 rnd0 pf0 dbg1 rnd1 pf1,
      honest_input sg enc_pk enc_sc sha3 oc L prm set t i0 /\ honest_input sg enc_pk enc_sc sha3 oc L prm set t i1 /\ honest_mint sg enc_pk enc_sc sha3 prm m0 /\ honest_mint sg enc_pk enc_sc sha3 prm m1 /\
      (mi_value m0 + mi_value m1 = co_value (sp_coin i0) + co_value (sp_coin i1))%N /\
      pour_circuits E0 E1 enc0 enc1 sg enc_pk enc_sc sha3 dbg oc L (sl_pc (even_p prm)) (sl_pc (odd_p prm)) prm t i0 i1 m0 m1 (p_new bench_transcript) (p_new bench_transcript) = Some (s0', s1', (path0, path1, c0, c1)) /\
      good_proof E0 dbg0 rnd0 (sl_pc (even_p prm)) (sl_bp (even_p prm)) s0' pf0 /\ good_proof E1 dbg1 rnd1 (sl_pc (odd_p prm)) (sl_bp (odd_p prm)) s1' pf1 /\
      po = mkPour pf0 pf1 path0 path1 (sp_pk i0) (sp_pk i1) c0 c1.
  Lemma honest_valid bp0 pc0 delta0 bp1 pc1 delta1 (prm : SRParams P0 P1) (L M : nat) (set : list P0) fuel height t oc i0 i1 po dbg rr0 rr1 :
    sl_new bp0 pc0 delta0 = Some (even_p prm) -> sl_new bp1 pc1 delta1 = Some (odd_p prm) -> sw_a P0 = 0 -> sw_a P1 = 0 ->
    gens_wf bp0 -> (gens_capacity bp0 < 2 ^ 32)%nat -> gens_wf bp1 -> (gens_capacity bp1 < 2 ^ 32)%nat ->
    from_set fuel L M prm set height = TOk t -> (N.of_nat (L ^ t_height t) < 2 ^ 64)%N -> (0 < M)%nat -> t_height t <> 0%nat -> (2 <= L)%nat -> (L <= 128 \/ 2 <= t_height t)%nat ->
    honest_payment oc L prm set t i0 i1 po -> pour_shape (t_height t) (po, rr0, rr1) /\ pour_valid E0 E1 enc0 enc1 enc_pk sha3 dbg L prm t (po, rr0, rr1).
  Proof.
    intros Hsl0 Hsl1 Ha0 Ha1 W0 B0 W1 B1 Ht Hc HM Hh HL HD (m0 & m1 & dbgp & s0' & s1' & p0 & p1 & c0 & c1 & dbg0 & rnd0 & pf0 & dbg1 & rnd1 & pf1 & I0 & I1 & M0 & M1 & Hb & R & G0 & G1 & ->).
    destruct (sl_new_good _ _ _ _ Hsl0) as (Hg0 & Eb0 & Ep0 & _), (sl_new_good _ _ _ _ Hsl1) as (Hg1 & Eb1 & Ep1 & _). rewrite <- Eb0 in W0, B0. rewrite <- Eb1 in W1, B1.
    destruct (pour_total E0 E1 enc0 enc1 sg enc_pk enc_sc sha3 dbgp oc L M prm set fuel height t i0 i1 m0 m1 (p_new bench_transcript) (p_new bench_transcript) Hg0 Hg1 Ha0 Ha1 Ht Hc HM Hh I0 I1 M0 M1 Hb (honest_new _) (honest_new _)) as (u0 & u1 & out & R' & H0 & H1 & D0 & D1).
    rewrite R in R'. apply Some_inj in R'. injection R' as <- <- <-. split.
    - destruct (pour_run E0 E1 enc0 enc1 sg enc_pk enc_sc sha3 dbgp oc L M prm set fuel height t i0 i1 m0 m1 bench_transcript bench_transcript _ _ _ _ _ _ _ _ _ _ Hg0 Hg1 Ht Hc HM Hh (honest_tag _ _ _ _ _ _ _ _ _ _ I0) (honest_tag _ _ _ _ _ _ _ _ _ _ I1)
        (ses_new E0 _ _ bench_transcript) (ses_new E1 _ _ bench_transcript) R) as (p0' & p1' & _ & _ & Hp0 & Hp1 & L0 & L1 & _).
      rewrite (completed_length _ _ _ Hp0) in L0. rewrite (completed_length _ _ _ Hp1) in L1. destruct G0 as [(tr0 & G0) _], G1 as [(tr1 & G1) _].
      split; [exact L0|]. split; [exact L1|]. cbn [po_even po_odd]. split; [exact (proof_lengths E0 _ _ _ _ _ _ _ G0)|exact (proof_lengths E1 _ _ _ _ _ _ _ G1)].
    - destruct (pour_accepted E0 E1 enc0 enc1 sg enc_pk enc_sc sha3 dbgp oc L M prm set fuel height t i0 i1 m0 m1 bench_transcript s0' s1' p0 p1 c0 c1 dbg0 rnd0 pf0 dbg1 rnd1 pf1
        Hg0 Hg1 Ht Hc HM Hh HL HD (honest_tag _ _ _ _ _ _ _ _ _ _ I0) (honest_tag _ _ _ _ _ _ _ _ _ _ I1) R H0 H1 D0 D1 W0 B0 W1 B1 G0 G1 dbg rr0 rr1) as (vt0 & vt1 & Hv & K0 & K1).
      rewrite pour_split in Hv. apply valid_entries. destruct (pour_entry0 _ _ _ _ _ _ _ _ _ _) as [a|]; [|discriminate Hv]. cbn [opt_bind] in Hv. destruct (pour_entry1 _ _ _ _ _ _ _ _) as [b|]; [|discriminate Hv]. cbn [opt_bind] in Hv.
      apply Some_inj in Hv. injection Hv as -> ->. exists vt0, vt1. split; [reflexivity|]. split; [reflexivity|]. split; [exact K0|exact K1].
  Qed.
End Honest.

(** Every non-empty list of honest payments is accepted, whatever the randomness of the
    verifier is. *)
Theorem C84_honest_blocks : forall (F0 F1 : PField) (P0 : SWCurve F1 F0) (P1 : SWCurve F0 F1) (FC : Field) (C : VSpace FC) (E0 : TrEnv P0) (E1 : TrEnv P1) (enc0 : P0 -> bytes) (enc1 : P1 -> bytes)
    (sg : SigScheme FC C) (enc_pk : C -> bytes) (enc_sc : FC -> bytes) (sha3 : bytes -> bytes)
    bp0 pc0 delta0 bp1 pc1 delta1 (prm : SRParams P0 P1) (L M : nat) (set : list P0) fuel height t oc dbg (jobs : list (Pour P0 P1 C * F0 * F1)) ws0 ws1,
  sl_new bp0 pc0 delta0 = Some (even_p prm) -> sl_new bp1 pc1 delta1 = Some (odd_p prm) -> sw_a P0 = 0 -> sw_a P1 = 0 ->
  gens_wf bp0 -> (gens_capacity bp0 < 2 ^ 32)%nat -> gens_wf bp1 -> (gens_capacity bp1 < 2 ^ 32)%nat ->
  from_set fuel L M prm set height = TOk t -> (N.of_nat (L ^ t_height t) < 2 ^ 64)%N -> (0 < M)%nat -> t_height t <> 0%nat -> (2 <= L)%nat -> (L <= 128 \/ 2 <= t_height t)%nat ->
  Forall (fun job => exists i0 i1, honest_payment E0 E1 enc0 enc1 sg enc_pk enc_sc sha3 oc L prm set t i0 i1 (fst (fst job))) jobs ->
  length jobs = S (length ws0) -> length jobs = S (length ws1) ->
  pours_sequential E0 E1 enc0 enc1 enc_pk sha3 dbg L prm t jobs ws0 ws1 = Some tt.
Proof.
  intros F0 F1 P0 P1 FC C E0 E1 enc0 enc1 sg enc_pk enc_sc sha3 bp0 pc0 delta0 bp1 pc1 delta1 prm L M set fuel height t oc dbg jobs ws0 ws1 Hsl0 Hsl1 Ha0 Ha1 W0 B0 W1 B1 Ht Hc HM Hh HL HD HJ N0 N1.
  assert (K : Forall (fun job => pour_shape (t_height t) job /\ pour_valid E0 E1 enc0 enc1 enc_pk sha3 dbg L prm t job) jobs).
  { eapply Forall_impl; [|exact HJ]. intros [[po rr0] rr1] (i0 & i1 & Hp). exact (honest_valid E0 E1 enc0 enc1 sg enc_pk enc_sc sha3 _ _ _ _ _ _ prm L M set fuel height t oc i0 i1 po dbg rr0 rr1 Hsl0 Hsl1 Ha0 Ha1 W0 B0 W1 B1 Ht Hc HM Hh HL HD Hp). }
  apply (C84_batch_complete _ _ P0 P1 _ C E0 E1 enc0 enc1 enc_pk sha3 bp0 pc0 delta0 bp1 pc1 delta1 prm L M set fuel height t dbg (t_height t) jobs ws0 ws1); try assumption.
  - eapply Forall_impl; [|exact K]. intros job H. exact (proj1 H).
  - eapply Forall_impl; [|exact K]. intros job H. exact (proj2 H).
Qed.

(** Refuted: no coin is spent twice in an accepted block.  Two honest payments that spend the
    same coin are accepted together, although they show the same key. *)
Theorem C84_double_spend_refuted : forall (F0 F1 : PField) (P0 : SWCurve F1 F0) (P1 : SWCurve F0 F1) (FC : Field) (C : VSpace FC) (E0 : TrEnv P0) (E1 : TrEnv P1) (enc0 : P0 -> bytes) (enc1 : P1 -> bytes)
    (sg : SigScheme FC C) (enc_pk : C -> bytes) (enc_sc : FC -> bytes) (sha3 : bytes -> bytes)
    bp0 pc0 delta0 bp1 pc1 delta1 (prm : SRParams P0 P1) (L M : nat) (set : list P0) fuel height t oc dbg i0 i1 po i0' i1' po' rr0 rr1 rr0' rr1' w0 w1,
  sl_new bp0 pc0 delta0 = Some (even_p prm) -> sl_new bp1 pc1 delta1 = Some (odd_p prm) -> sw_a P0 = 0 -> sw_a P1 = 0 ->
  gens_wf bp0 -> (gens_capacity bp0 < 2 ^ 32)%nat -> gens_wf bp1 -> (gens_capacity bp1 < 2 ^ 32)%nat ->
  from_set fuel L M prm set height = TOk t -> (N.of_nat (L ^ t_height t) < 2 ^ 64)%N -> (0 < M)%nat -> t_height t <> 0%nat -> (2 <= L)%nat -> (L <= 128 \/ 2 <= t_height t)%nat ->
  honest_payment E0 E1 enc0 enc1 sg enc_pk enc_sc sha3 oc L prm set t i0 i1 po -> honest_payment E0 E1 enc0 enc1 sg enc_pk enc_sc sha3 oc L prm set t i0' i1' po' ->
  sp_index i0' = sp_index i0 -> sp_coin i0' = sp_coin i0 -> sp_pk i0' = sp_pk i0 ->
  po_pk0 po = po_pk0 po' /\ pours_sequential E0 E1 enc0 enc1 enc_pk sha3 dbg L prm t [(po, rr0, rr1); (po', rr0', rr1')] [w0] [w1] = Some tt.
Proof.
  intros F0 F1 P0 P1 FC C E0 E1 enc0 enc1 sg enc_pk enc_sc sha3 bp0 pc0 delta0 bp1 pc1 delta1 prm L M set fuel height t oc dbg i0 i1 po i0' i1' po' rr0 rr1 rr0' rr1' w0 w1 Hsl0 Hsl1 Ha0 Ha1 W0 B0 W1 B1 Ht Hc HM Hh HL HD H1 H2 _ _ Hpk. split.
  - destruct H1 as (m0 & m1 & dbgp & s0' & s1' & p0 & p1 & c0 & c1 & dbg0 & rnd0 & pf0 & dbg1 & rnd1 & pf1 & _ & _ & _ & _ & _ & _ & _ & _ & ->).
    destruct H2 as (m0' & m1' & dbgp' & s0'' & s1'' & p0' & p1' & c0' & c1' & dbg0' & rnd0' & pf0' & dbg1' & rnd1' & pf1' & _ & _ & _ & _ & _ & _ & _ & _ & ->). cbn [po_pk0]. congruence.
  - apply (C84_honest_blocks _ _ P0 P1 _ C E0 E1 enc0 enc1 sg enc_pk enc_sc sha3 bp0 pc0 delta0 bp1 pc1 delta1 prm L M set fuel height t oc dbg _ [w0] [w1]); try assumption; [|reflexivity|reflexivity].
    constructor; [exists i0, i1; exact H1|]. constructor; [exists i0', i1'; exact H2|constructor].
Qed.

(** ** Examples *)
(** [C84_honest_blocks], [C84_double_spend_refuted], [C84_batch_complete]: the tree of
    [C56_demo].  One payment turns the coins of values 30 and 12 into 40 and 2; a block with two
    proofs of it is accepted. *)
Example C84_demo : exists (prm : SRParams TC0 TC1) t i0 i1 s0' s1' path0 path1 c0 c1, t_height t = 3%nat /\
    pour_circuits EE0 EE1 ec0 ec1 toy_schnorr ec1 sc139 toy_sha true true 2 toy_pcg toy_pcg1 prm t i0 i1 (toy_m0 40) (toy_m1 2) (p_new bench_transcript) (p_new bench_transcript) = Some (s0', s1', (path0, path1, c0, c1)) /\
    forall dbg0 rnd0 pf0 dbg1 rnd1 pf1 dbg0' rnd0' pf0' dbg1' rnd1' pf1', good_proof EE0 dbg0 rnd0 toy_pcg pos0 s0' pf0 -> good_proof EE1 dbg1 rnd1 toy_pcg1 pos1 s1' pf1 ->
    good_proof EE0 dbg0' rnd0' toy_pcg pos0 s0' pf0' -> good_proof EE1 dbg1' rnd1' toy_pcg1 pos1 s1' pf1' ->
    forall rr0 rr1 rr0' rr1' w0 w1, pours_sequential EE0 EE1 ec0 ec1 ec1 toy_sha true 2 prm t
      [(mkPour (P0 := TC0) (P1 := TC1) (C := TC1) pf0 pf1 path0 path1 (sp_pk i0) (sp_pk i1) c0 c1, rr0, rr1); (mkPour (P0 := TC0) (P1 := TC1) (C := TC1) pf0' pf1' path0 path1 (sp_pk i0) (sp_pk i1) c0 c1, rr0', rr1')] [w0] [w1] = Some tt.
Proof.
  destruct purse_demo as (prm & t & set & i0 & i1 & H0 & H1 & A0 & A1 & Ht & Eh & I0 & I1 & V0 & V1 & M0 & M1 & _).
  destruct (C56_complete_partial _ _ TC0 TC1 _ _ EE0 EE1 ec0 ec1 toy_schnorr ec1 sc139 toy_sha pos0 toy_pcg toy_delta pos1 toy_pcg1 toy_delta1 prm 2 1 set 6 None t true true i0 i1 (toy_m0 40) (toy_m1 2) bench_transcript
    H0 H1 A0 A1 (gens_wf_new _ _ _ _ _) cap_256 (gens_wf_new _ _ _ _ _) cap_256 Ht ltac:(rewrite Eh; vm_compute; reflexivity) ltac:(lia) ltac:(rewrite Eh; discriminate) ltac:(lia) ltac:(left; lia) I0 I1 M0 M1
    ltac:(rewrite V0, V1; reflexivity)) as (s0' & s1' & p0 & p1 & c0 & c1 & R & _).
  exists prm, t, i0, i1, s0', s1', p0, p1, c0, c1. split; [exact Eh|]. split; [exact R|]. intros dbg0 rnd0 pf0 dbg1 rnd1 pf1 dbg0' rnd0' pf0' dbg1' rnd1' pf1' G0 G1 G0' G1' rr0 rr1 rr0' rr1' w0 w1.
  destruct (sl_new_good _ _ _ _ H0) as (_ & Eb0 & Ep0 & _), (sl_new_good _ _ _ _ H1) as (_ & Eb1 & Ep1 & _).
  apply (C84_double_spend_refuted _ _ TC0 TC1 _ _ EE0 EE1 ec0 ec1 toy_schnorr ec1 sc139 toy_sha pos0 toy_pcg toy_delta pos1 toy_pcg1 toy_delta1 prm 2 1 set 6 None t true true i0 i1 _ i0 i1 _ rr0 rr1 rr0' rr1' w0 w1
    H0 H1 A0 A1 (gens_wf_new _ _ _ _ _) cap_256 (gens_wf_new _ _ _ _ _) cap_256 Ht ltac:(rewrite Eh; vm_compute; reflexivity) ltac:(lia) ltac:(rewrite Eh; discriminate) ltac:(lia) ltac:(left; lia)); try reflexivity.
  - exists (toy_m0 40), (toy_m1 2), true, s0', s1', p0, p1, c0, c1, dbg0, rnd0, pf0, dbg1, rnd1, pf1. rewrite Eb0, Ep0, Eb1, Ep1. repeat (split; [assumption|]). split; [rewrite V0, V1; reflexivity|]. repeat (split; [assumption|]). reflexivity.
  - exists (toy_m0 40), (toy_m1 2), true, s0', s1', p0, p1, c0, c1, dbg0', rnd0', pf0', dbg1', rnd1', pf1'. rewrite Eb0, Ep0, Eb1, Ep1. repeat (split; [assumption|]). split; [rewrite V0, V1; reflexivity|]. repeat (split; [assumption|]). reflexivity.
Qed.
(** A payment of the toy tree with its proofs, if no validated point is the identity (test
    data, no code modelled). *)
Definition toy_pour (prm : SRParams TC0 TC1) t (i0 i1 : Sp) (v0 v1 : N) : option (Pour TC0 TC1 TC1) :=
  match pour_circuits EE0 EE1 ec0 ec1 toy_schnorr ec1 sc139 toy_sha true true 2 toy_pcg toy_pcg1 prm t i0 i1 (toy_m0 v0) (toy_m1 v1) (p_new bench_transcript) (p_new bench_transcript) with
  | Some (s0, s1, (path0, path1, c0, c1)) =>
    match r1cs_prove EE0 true (toy_rnd PM163) toy_pcg pos0 s0, r1cs_prove EE1 true (toy_rnd PM139) toy_pcg1 pos1 s1 with
    | Some (Ok (pf0, _)), Some (Ok (pf1, _)) => if nz_points (length (p_vec s0)) pf0 && nz_points (length (p_vec s1)) pf1 then Some (mkPour pf0 pf1 path0 path1 (sp_pk i0) (sp_pk i1) c0 c1) else None
    | _, _ => None end
  | None => None end.
(** The same payment with another last scalar in its even or odd proof (test data, no code
    modelled). *)
Definition spoil_even (po : Pour TC0 TC1 TC1) : Pour TC0 TC1 TC1 :=
  let pf := po_even po in let q := pipp pf in
  mkPour (mkProof (A_I1 pf) (A_O1 pf) (S1 pf) (A_I2 pf) (A_O2 pf) (S2 pf) (pT pf) (pt_x pf) (pt_x_blinding pf) (pe_blinding pf) (mkIPP (ipp_L q) (ipp_R q) (ipp_a q) (ipp_b q + 1))) (po_odd po) (po_path0 po) (po_path1 po) (po_pk0 po) (po_pk1 po) (po_minted0 po) (po_minted1 po).
(* test data or vocabulary of statements, no code modelled *)
Definition spoil_odd (po : Pour TC0 TC1 TC1) : Pour TC0 TC1 TC1 :=
  let pf := po_odd po in let q := pipp pf in
  mkPour (po_even po) (mkProof (A_I1 pf) (A_O1 pf) (S1 pf) (A_I2 pf) (A_O2 pf) (S2 pf) (pT pf) (pt_x pf) (pt_x_blinding pf) (pe_blinding pf) (mkIPP (ipp_L q) (ipp_R q) (ipp_a q) (ipp_b q + 1))) (po_path0 po) (po_path1 po) (po_pk0 po) (po_pk1 po) (po_minted0 po) (po_minted1 po).
(* test data or vocabulary of statements, no code modelled *)
Definition toy_block (prm : SRParams TC0 TC1) t (pos : list (Pour TC0 TC1 TC1)) : bool * bool :=
  let jobs := imap (fun i po => (po, f163 (Z.of_nat (5 + i)), f139 (Z.of_nat (7 + i)))) 0 pos in
  let ws0 := map (fun i => f163 (Z.of_nat (31 + i))) (seq 1 (length pos - 1)) in let ws1 := map (fun i => f139 (Z.of_nat (37 + i))) (seq 1 (length pos - 1)) in
  (is_some (pours_sequential EE0 EE1 ec0 ec1 ec1 toy_sha true 2 prm t jobs ws0 ws1), is_some (pours_parallel EE0 EE1 ec0 ec1 ec1 toy_sha true 2 prm t jobs ws0 ws1)).
(** Two different payments of the coin of value 30, one of them with the coin twice, are
    accepted in one block by both branches.  With one scalar of a proof changed the block is
    refused ([C84_batch_sound]; its hypotheses hold for this block).  A test made when this file
    is compiled. *)
Definition C84_run_value : list (bool * bool) := Eval vm_compute in
  match sl_new pos0 toy_pcg toy_delta, sl_new pos1 toy_pcg1 toy_delta1 with
  | Some a, Some b => let prm := mkSRP a b in
     match toy_new a 30 (toy_pk_of (f139 17)) (f139 21) (f163 8), toy_new a 12 (toy_pk_of (f139 19)) (f139 23) (f163 9) with
     | Some (x0, c0), Some (x1, c1) =>
       match from_set 6 2 1 prm (toy_purse c0 c1) None with
       | TOk t => let i0 := toy_spend 1 x0 (f139 17) in let i1 := toy_spend 3 x1 (f139 19) in
          match toy_pour prm t i0 i1 40 2, toy_pour prm t i0 i0 50 10 with
          | Some po, Some po' => [toy_block prm t [po; po']; toy_block prm t [po; spoil_even po']; toy_block prm t [spoil_odd po; po']]
          | _, _ => [] end
       | _ => [] end
     | _, _ => [] end
  | _, _ => [] end.
Example C84_run_test : C84_run_value = [(true, true); (false, false); (false, false)].
Proof. reflexivity. Qed.
(** The sizes in [C84_batch_sound] for the toy tree. *)
Example C84_sizes : (pour_pad0 (F1 := PF139) 3 2 <= gens_capacity pos0)%nat /\ (pour_pad1 (F0 := PF163) 3 2 <= gens_capacity pos1)%nat.
Proof. split; apply Nat.leb_le; vm_compute; reflexivity. Qed.
Print Assumptions C84_branches_agree.
Print Assumptions C84_single.
Print Assumptions C84_batch_complete.
Print Assumptions C84_batch_sound.
Print Assumptions C84_honest_blocks.
Print Assumptions C84_double_spend_refuted.
