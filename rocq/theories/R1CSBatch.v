(** * Batch verification *)
From Verif Require Import R1CSSpec UtilProofs CSProofs R1CSPoly R1CSAlg R1CSProofs R1CSCore R1CSMain R1CSVerif R1CSMore R1CSTotal R1CSMisc.
Local Open Scope F_scope.

Section Batch.
  Context {F : Field} {V : VSpace F}.
  Add Field FFbatch : (f_th F).
  Variable E : TrEnv V.
  Variable pc : PedersenGens V.
  Variable g : BPGens V.

  (** The point that [verify] compares with the identity for one tuple. *)
  Definition tuple_value (G H : list V) (vt : VTuple V) : V :=
    msm (vt_scalars vt ++ vt_fixed vt) (vt_points vt ++ [pcB pc; pcB_blinding pc] ++ G ++ H).
  (** A tuple of circuit size [N] whose point and scalar lists have the same length. *)
  Definition well_sized (N : nat) (vt : VTuple V) : Prop :=
    length (vt_scalars vt) = length (vt_points vt) /\ length (vt_fixed vt) = (2 + 2 * N)%nat.
  (** The weighted sum of the individual values. *)
  Fixpoint weighted (ws : list F) (vs : list V) : V :=
    match ws, vs with w :: ws', v :: vs' => vadd (vsmul w v) (weighted ws' vs') | _, _ => v0 end.

  Lemma zipw_add_length (a b : list F) : length a = length b -> length (zipw fadd a b) = length a.
  Proof. intros H. rewrite zipw_length. lia. Qed.
  Lemma msm_zipw_add (a : list F) : forall b (P : list V), length a = length b -> msm (zipw fadd a b) P = vadd (msm a P) (msm b P).
  Proof.
    induction a as [|x a IH]; intros [|y b] P H; cbn [zipw msm length] in *; try lia; [destruct P; cbn; vring|].
    destruct P as [|p P]; cbn [msm]; [vring|]. rewrite IH by lia. vring.
  Qed.
  Lemma msm_scaled (c : F) (a : list F) (P : list V) : msm (map (fun x => x * c) a) P = vsmul c (msm a P).
  Proof. rewrite (map_ext (fun x : F => x * c) (fun x => c * x)) by (intros; ring). rewrite (msm_map_scale c (fun x => x)), map_id. reflexivity. Qed.

  Lemma batch_acc_value N (FP : list V) : forall vts ws pts scs lin, length ws = length vts ->
    length scs = length pts -> length lin = (2 + 2 * N)%nat -> Forall (well_sized N) vts ->
    let '(pts', scs', lin') := batch_acc vts ws (pts, scs, lin) in
    length scs' = length pts' /\ length lin' = (2 + 2 * N)%nat /\
    msm (scs' ++ lin') (pts' ++ FP) =
      vadd (msm (scs ++ lin) (pts ++ FP)) (weighted ws (map (fun vt => msm (vt_scalars vt ++ vt_fixed vt) (vt_points vt ++ FP)) vts)).
  Proof.
    induction vts as [|vt vts IH]; intros [|w ws] pts scs lin Hw Hs Hl Hall; cbn [length] in Hw; try discriminate; cbn [batch_acc].
    - repeat split; auto. cbn [map weighted]. vring.
    - apply Forall_cons_iff in Hall as [(W1 & W2) Hall].
      specialize (IH ws (pts ++ vt_points vt) (scs ++ map (fun x => x * w) (vt_scalars vt)) (zipw fadd lin (map (fun x => x * w) (vt_fixed vt)))).
      assert (Hlw : length lin = length (map (fun x => x * w) (vt_fixed vt))) by (rewrite map_length; congruence).
      destruct (batch_acc vts ws _) as [[pts' scs'] lin'].
      destruct IH as (I1 & I2 & I3).
      + lia.
      + rewrite !app_length, map_length. lia.
      + rewrite zipw_add_length by exact Hlw. exact Hl.
      + exact Hall.
      + split; [exact I1|]. split; [exact I2|]. rewrite I3. cbn [map weighted].
        rewrite <- !app_assoc. rewrite (msm_app scs) by exact Hs. rewrite (msm_app scs lin) by exact Hs.
        rewrite (msm_app (map (fun x => x * w) (vt_scalars vt))) by (rewrite map_length; exact W1).
        rewrite (msm_app (vt_scalars vt)) by exact W1. rewrite msm_zipw_add by exact Hlw. rewrite !msm_scaled. vring.
  Qed.

  Lemma batch_value N Gr Hr vt vts ws : well_sized N vt -> Forall (well_sized N) vts -> length ws = length vts ->
    nth_error (G_vec g) 0 = Some Gr -> nth_error (H_vec g) 0 = Some Hr -> (N <= gens_capacity g)%nat ->
    batch_verify (vt :: vts) ws pc g =
      Some (if veqb (vadd (tuple_value (firstn N Gr) (firstn N Hr) vt) (weighted ws (map (tuple_value (firstn N Gr) (firstn N Hr)) vts))) v0
            then Ok tt else Err VerificationError).
  Proof.
    intros (W1 & W2) Hall Hws HG HH Hc. unfold batch_verify.
    replace ((length (vt_fixed vt) - 2) / 2)%nat with N by (rewrite W2; replace (2 + 2 * N - 2)%nat with (N * 2)%nat by lia; rewrite Nat.div_mul by lia; reflexivity).
    pose proof (batch_acc_value N ([pcB pc; pcB_blinding pc] ++ firstn N Gr ++ firstn N Hr) vts ws (vt_points vt) (vt_scalars vt) (vt_fixed vt) Hws W1 W2 Hall) as HB.
    destruct (batch_acc vts ws _) as [[pts scs] lin]. destruct HB as (_ & _ & HB).
    unfold mega_check. destruct (Nat.ltb_spec (gens_capacity g) N); [lia|]. unfold share_G, share_H. rewrite HG, HH. cbn [option_map opt_bind].
    rewrite HB. fold (tuple_value (firstn N Gr) (firstn N Hr) vt).
    change (fun vt0 => msm (vt_scalars vt0 ++ vt_fixed vt0) (vt_points vt0 ++ [pcB pc; pcB_blinding pc] ++ firstn N Gr ++ firstn N Hr)) with (tuple_value (firstn N Gr) (firstn N Hr)).
    destruct (veqb _ v0); reflexivity.
  Qed.

  Lemma weighted_zero ws : forall vs : list V, Forall (fun v => v = v0) vs -> weighted ws vs = v0.
  Proof.
    induction ws as [|w ws IH]; intros [|v vs] H; cbn [weighted]; auto. apply Forall_cons_iff in H as [-> H]. rewrite IH by exact H. vring.
  Qed.
  Lemma weighted_upd ws : forall (vs : list V) j c, length ws = length vs -> (j < length ws)%nat ->
    weighted (upd ws j (fun _ => c)) vs = vadd (vsmul (c - nth j ws 0) (nth j vs v0)) (weighted ws vs).
  Proof.
    induction ws as [|w ws IH]; intros [|v vs] j c Hl Hj; cbn [length] in *; try lia. destruct j as [|j]; cbn [upd weighted nth].
    - vring.
    - rewrite IH by lia. vring.
  Qed.

  (** one tuple on its own *)
  Definition checks (N : nat) (vt : VTuple V) : Prop :=
    mega_check pc g N (vt_points vt) (vt_scalars vt) (vt_fixed vt) = Some (Ok tt).
  Lemma checks_value N Gr Hr vt : nth_error (G_vec g) 0 = Some Gr -> nth_error (H_vec g) 0 = Some Hr -> (N <= gens_capacity g)%nat ->
    (checks N vt <-> tuple_value (firstn N Gr) (firstn N Hr) vt = v0).
  Proof.
    intros HG HH Hc. unfold checks, mega_check. destruct (Nat.ltb_spec (gens_capacity g) N); [lia|]. unfold share_G, share_H. rewrite HG, HH. cbn [option_map opt_bind].
    fold (tuple_value (firstn N Gr) (firstn N Hr) vt). destruct (veqb_spec _ _ (tuple_value (firstn N Gr) (firstn N Hr) vt) v0); split; intros; congruence.
  Qed.

  Lemma batch_complete N vt vts ws : gens_wf g -> (N <= gens_capacity g)%nat -> Forall (well_sized N) (vt :: vts) -> length ws = length vts ->
    Forall (checks N) (vt :: vts) -> batch_verify (vt :: vts) ws pc g = Some (Ok tt).
  Proof.
    intros (Gr & Hr & HG & HH & _ & _) Hc Hsz Hws Hok. apply Forall_cons_iff in Hsz as [W Hsz]. apply Forall_cons_iff in Hok as [O Hok].
    rewrite (batch_value N Gr Hr) by assumption. rewrite (proj1 (checks_value N Gr Hr vt HG HH Hc) O).
    rewrite weighted_zero.
    - rewrite (proj2 (veqb_true _ _)) by vring. reflexivity.
    - apply Forall_map. eapply Forall_impl; [|exact Hok]. intros a Ha. apply (checks_value N Gr Hr a HG HH Hc). exact Ha.
  Qed.

  Lemma batch_sound N vt vts : gens_wf g -> (N <= gens_capacity g)%nat -> Forall (well_sized N) (vt :: vts) ->
    ~ Forall (checks N) (vt :: vts) ->
    (forall ws, length ws = length vts -> batch_verify (vt :: vts) ws pc g <> Some (Ok tt)) \/
    (exists j, (j < length vts)%nat /\ forall ws, length ws = length vts -> forall c c',
       batch_verify (vt :: vts) (upd ws j (fun _ => c)) pc g = Some (Ok tt) ->
       batch_verify (vt :: vts) (upd ws j (fun _ => c')) pc g = Some (Ok tt) -> c = c').
  Proof.
    intros (Gr & Hr & HG & HH & _ & _) Hc Hsz Hbad. apply Forall_cons_iff in Hsz as [W Hsz].
    set (val := tuple_value (firstn N Gr) (firstn N Hr)).
    assert (Hdec : Forall (fun v => v = v0) (map val vts) \/ exists j, (j < length vts)%nat /\ nth j (map val vts) v0 <> v0).
    { clear -vts. induction vts as [|a vts IH]; [left; constructor|]. destruct (veqb_spec _ _ (val a) v0) as [Ha|Ha].
      - destruct IH as [IH|(j & Hj & Hn)]; [left; constructor; assumption|]. right. exists (S j). cbn. split; [lia|exact Hn].
      - right. exists 0%nat. cbn. split; [lia|exact Ha]. }
    assert (Hup : forall (ws : list F) j (c : F), length (upd ws j (fun _ => c)) = length ws) by (intros; apply upd_length).
    destruct Hdec as [Hz|(j & Hj & Hn)].
    - left. intros ws Hws Hok. apply Hbad. rewrite (batch_value N Gr Hr) in Hok by assumption. fold val in Hok. rewrite weighted_zero in Hok by exact Hz.
      destruct (veqb_spec _ _ (vadd (val vt) v0) v0) as [Hv|]; [|discriminate]. constructor.
      + apply (checks_value N Gr Hr vt HG HH Hc). fold val. rewrite <- Hv. vring.
      + apply Forall_map in Hz. eapply Forall_impl; [|exact Hz]. intros a Ha. apply (checks_value N Gr Hr a HG HH Hc). exact Ha.
    - right. exists j. split; [exact Hj|]. intros ws Hws c c' H1 H2.
      rewrite (batch_value N Gr Hr) in H1, H2 by (try assumption; rewrite Hup; assumption). fold val in H1, H2.
      rewrite weighted_upd in H1, H2 by (rewrite ?map_length; lia).
      destruct (veqb_spec _ _ (vadd (val vt) (vadd (vsmul (c - nth j ws 0) (nth j (map val vts) v0)) (weighted ws (map val vts)))) v0) as [V1|]; [|discriminate].
      destruct (veqb_spec _ _ (vadd (val vt) (vadd (vsmul (c' - nth j ws 0) (nth j (map val vts) v0)) (weighted ws (map val vts)))) v0) as [V2|]; [|discriminate].
      assert (Hd : vsmul (c - c') (nth j (map val vts) v0) = v0).
      {
        transitivity (vsub (vadd (val vt) (vadd (vsmul (c - nth j ws 0) (nth j (map val vts) v0)) (weighted ws (map val vts))))
                           (vadd (val vt) (vadd (vsmul (c' - nth j ws 0) (nth j (map val vts) v0)) (weighted ws (map val vts))))); [vring|].
        rewrite V1, V2. vring. }
      apply vsmul_eq_0 in Hd as [Hd|Hd]; [apply fsub_0_iff; exact Hd|contradiction].
  Qed.

  (** tuples made by the verifier *)
  Lemma tuple_well_sized dbg rr pf t vt : v_scalars_and_points E dbg rr pf t = Some (Ok vt) ->
    length (ipp_R (pipp pf)) = length (ipp_L (pipp pf)) -> v_def t = [] -> well_sized (next_power_of_two (v_size t)) vt.
  Proof.
    intros Hv HR Hd. destruct (v_facts_of_scalars _ _ _ _ _ _ Hv) as (t2 & y & z & u & x & w & fl & us & Hf).
    pose proof (v_scalars_of_facts E dbg rr pf t t2 y z u x w fl us Hf) as Hv'. rewrite Hv in Hv'. apply Some_inj in Hv'.
    assert (vt = run_tuple rr pf t2 (v_size t) (v_size t2) (op_degree_of (length (v_vec t))) y u x w fl us) by congruence. subst vt. split.
    - apply (v_facts_aligned E dbg rr pf t t2 y z u x w fl us Hf HR).
    - rewrite (v_facts_fixed_length E dbg rr pf t t2 y z u x w fl us Hf), (vf_size E _ _ _ _ _ _ _ _ _ _ _ Hd Hf). reflexivity.
  Qed.
  Lemma verify_checks dbg rr pf t vt : v_scalars_and_points E dbg rr pf t = Some (Ok vt) -> well_sized (next_power_of_two (v_size t)) vt ->
    (r1cs_verify E dbg rr pf pc g t = Some (Ok tt) <-> checks (next_power_of_two (v_size t)) vt).
  Proof.
    intros Hv (_ & Hl). unfold r1cs_verify. rewrite Hv. cbn [res_bind]. rewrite Hl.
    replace (2 + 2 * next_power_of_two (v_size t) - 2)%nat with (next_power_of_two (v_size t) * 2)%nat by lia. rewrite Nat.div_mul by lia. reflexivity.
  Qed.
End Batch.
