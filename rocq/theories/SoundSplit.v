(** * The final check of the verifier as two checks *)
From Verif Require Import SoundSpec UtilProofs CSProofs FlatProofs R1CSPoly R1CSAlg R1CSProofs IPPSpec IPPProofs R1CSCore R1CSVerif R1CSMisc.
Local Open Scope F_scope.

Section Split.
  Context {F : Field} {V : VSpace F}.
  Add Field FFspl : (f_th F).

  Section Defs.
    Variables (pf : R1CSProof V) (t2 : VState V) (n1 n op : nat) (y u x w : F) (fl : Flat F) (B Bb : V) (G H : list V).
    Let N := next_power_of_two n.
    Let mid := (op / 2)%nat.
    Let ov := skipn 2 (op_splits op).
    (* vocabulary of specifications and proofs, no code modelled *)
    Definition ufs_of : list F := repeat 1 n1 ++ repeat u (n - n1 + (N - n)).
    (* vocabulary of specifications and proofs, no code modelled *)
    Definition yw_of : list F := zipw fmul (wR fl) (exp_iter (finv y) N) ++ repeat 0 (N - n).
    (* vocabulary of specifications and proofs, no code modelled *)
    Definition delta_of : F := ip (firstn n yw_of) (wL fl).
    (** the point the inner-product argument is about *)
    Definition P_ipp : V :=
      vadd (vadd (vadd (msm (map (fun o => fpow x (fst o)) (firstn (length (v_vec t2)) ov)) (map fst (v_vec t2)))
        (vadd (vadd (vsmul (fpow x mid) (vadd (A_I1 pf) (vsmul u (A_I2 pf)))) (vsmul (fpow x op) (vadd (A_O1 pf) (vsmul u (A_O2 pf)))))
              (vsmul (fpow x (op + 1)) (vadd (S1 pf) (vsmul u (S2 pf))))))
        (vadd (msm (map (fun i => nth i ufs_of 0 * (fpow x mid * nth i yw_of 0)) (seq 0 N)) G)
              (msm (map (fun i => nth i ufs_of 0 * (nth i (exp_iter (finv y) N) 0 * (fpow x mid * nth i (wL fl) 0 + nth i (wO fl) 0
                                + slots_sum snd ov (wVC fl) x i) - 1)) (seq 0 N)) H)))
        (vadd (vsmul (w * pt_x pf) B) (vsmul (- pe_blinding pf) Bb)).
    (** the check of the polynomial [t] *)
    Definition P_tx : V :=
      vadd (vadd (vsmul (fpow x op) (msm (wV fl) (v_V t2)))
                 (let ds := filter (fun d => negb (Nat.eqb d op)) (seq 0 (2 * (op + 1) + 1)) in
                  msm (map (fun d => fpow x d) ds) (map (fun d => nth d (pT pf) v0) ds)))
        (vadd (vsmul (fpow x op * (wc fl + delta_of) - pt_x pf) B) (vsmul (- pt_x_blinding pf) Bb)).
  End Defs.

  Lemma msm_map_scale (c : F) {A} (f : A -> F) (l : list A) : forall P : list V, msm (map (fun a => c * f a) l) P = vsmul c (msm (map f l) P).
  Proof. induction l as [|a l IH]; intros [|p P]; cbn [map msm]; try (rewrite ?IH; vring). Qed.

  Lemma run_tuple_split rr (pf : R1CSProof V) (t2 : VState V) n1 n y u x w fl us (B Bb : V) (G H : list V) :
    let op := op_degree_of (length (v_vec t2)) in
    let N := next_power_of_two n in
    shape fl n (length (v_V t2)) (map snd (v_vec t2)) -> (n1 <= n)%nat ->
    length (ipp_L (pipp pf)) = length us -> length (ipp_R (pipp pf)) = length us -> N = (2 ^ length us)%nat ->
    length G = N -> length H = N ->
    let vt := run_tuple rr pf t2 n1 n op y u x w fl us in
    vt_points vt = all_points t2 pf /\ length (vt_scalars vt) = length (vt_points vt) /\ length (vt_fixed vt) = (2 + (N + N))%nat /\
    msm (vt_scalars vt ++ vt_fixed vt) (vt_points vt ++ [B; Bb] ++ G ++ H) =
    vadd (vadd (P_ipp pf t2 n1 n op y u x w fl B Bb G H)
           (vopp (expected us (ipp_L (pipp pf)) (ipp_R (pipp pf)) (ipp_a (pipp pf)) (ipp_b (pipp pf)) (vsmul w B)
                    (scaled (ufs_of n1 n u) G) (scaled (zipw fmul (exp_iter (finv y) N) (ufs_of n1 n u)) H))))
         (vsmul rr (P_tx pf t2 n op y x fl B Bb)).
  Proof.
    intros op N (WL & WR & WO & WV & WVC) Hn1 LL LR HN LG LH vt.
    assert (HnN : (n <= N)%nat) by apply next_power_of_two_ge.
    assert (Hop2 : (2 <= op)%nat) by (unfold op; rewrite op_degree_even; lia).
    unfold vt, run_tuple, all_points. fold N op. cbn [vt_points vt_scalars vt_fixed].
    fold (ufs_of n1 n u). unfold N at 1 2 3 4 5 6 7.
    change (next_power_of_two n) with N.
    set (ov := skipn 2 (op_splits op)) in *. set (mid := (op / 2)%nat) in *.
    change (repeat 1 n1 ++ repeat u (n - n1 + (N - n))) with (ufs_of n1 n u).
    change (zipw fmul (wR fl) (exp_iter (finv y) N) ++ repeat 0 (N - n)) with (yw_of n y fl).
    set (ufs := ufs_of n1 n u). set (yw := yw_of n y fl).
    set (ds := filter (fun d => negb (Nat.eqb d op)) (seq 0 (2 * (op + 1) + 1))).
    assert (Lufs : length ufs = N) by (unfold ufs, ufs_of; fold N; rewrite app_length, !repeat_length; lia).
    assert (Lyw : length yw = N) by (unfold yw, yw_of; fold N; rewrite app_length, zipw_length, repeat_length, exp_iter_length, WR; lia).
    assert (Lsv : length (svec us) = N) by (rewrite svec_length; congruence).
    set (a := ipp_a (pipp pf)). set (b := ipp_b (pipp pf)).
    set (gsc := zipw _ (combine yw ufs) (svec us)). set (hsc := map _ (seq 0 N)).
    assert (Lg : length gsc = N) by (unfold gsc; rewrite zipw_length, combine_length; lia).
    assert (Lh : length hsc = N) by (unfold hsc; rewrite map_length, seq_length; reflexivity).
    assert (Hov : (length (v_vec t2) <= length ov)%nat).
    { unfold ov. rewrite skipn_length, op_splits_length by exact Hop2. pose proof (op_degree_ge (length (v_vec t2))). fold op in H0. lia. }
    assert (Lc1 : length (map (fun o : nat * nat => fpow x (fst o)) (firstn (length (v_vec t2)) ov)) = length (map fst (v_vec t2))).
    { rewrite !map_length, firstn_length. lia. }
    split; [reflexivity|]. split.
    { rewrite !app_length, Lc1, !map_length. cbn [length]. lia. }
    split. { cbn [length]. rewrite app_length. lia. }
    rewrite split_msm; [|exact Lc1|reflexivity|rewrite map_length; exact WV|rewrite !map_length; reflexivity|rewrite map_length; congruence|rewrite map_length; congruence|congruence].
    assert (Eg : msm gsc G = vadd (msm (map (fun i => nth i ufs 0 * (fpow x mid * nth i yw 0)) (seq 0 N)) G) (vopp (vsmul a (msm (svec us) (scaled ufs G))))).
    { rewrite <- (msm_zipw_mul (svec us) ufs G).
      rewrite (msm_nth gsc G N Lg), (msm_nth (map _ (seq 0 N)) G N) by (rewrite map_length, seq_length; reflexivity).
      rewrite (msm_nth (zipw fmul (svec us) ufs) G N) by (rewrite zipw_length; lia).
      transitivity (gsum N (fun i => vadd (vsmul (nth i ufs 0 * (fpow x mid * nth i yw 0)) (nth i G v0)) (vsmul (- a) (vsmul (nth i (svec us) 0 * nth i ufs 0) (nth i G v0))))).
      - apply gsum_ext. intros i Hi. unfold gsc.
        rewrite (nth_zipw _ (combine yw ufs) (svec us) i (0, 0) 0 0) by (rewrite ?combine_length; lia).
        rewrite combine_nth by congruence. vring.
      - rewrite gsum_add. f_equal.
        + apply gsum_ext. intros i Hi. rewrite (nth_map_seq (fun i => nth i ufs 0 * (fpow x mid * nth i yw 0))) by exact Hi. reflexivity.
        + rewrite gsum_smul. transitivity (vsmul (- a) (gsum N (fun i => vsmul (nth i (zipw fmul (svec us) ufs) 0) (nth i G v0)))); [|vring].
          f_equal. apply gsum_ext. intros i Hi. rewrite nth_zipw_mul. reflexivity. }
    assert (Eh : msm hsc H = vadd (msm (map (fun i => nth i ufs 0 * (nth i (exp_iter (finv y) N) 0 * (fpow x mid * nth i (wL fl) 0 + nth i (wO fl) 0
                                + slots_sum snd ov (wVC fl) x i) - 1)) (seq 0 N)) H)
          (vopp (vsmul b (msm (rev (svec us)) (scaled (zipw fmul (exp_iter (finv y) N) ufs) H))))).
    { rewrite <- (msm_zipw_mul (rev (svec us)) _ H).
      rewrite (msm_nth hsc H N Lh), (msm_nth (map _ (seq 0 N)) H N) by (rewrite map_length, seq_length; reflexivity).
      rewrite (msm_nth (zipw fmul (rev (svec us)) _) H N) by (rewrite !zipw_length, rev_length, exp_iter_length; lia).
      transitivity (gsum N (fun i => vadd (vsmul (nth i ufs 0 * (nth i (exp_iter (finv y) N) 0 * (fpow x mid * nth i (wL fl) 0 + nth i (wO fl) 0
                                + slots_sum snd ov (wVC fl) x i) - 1)) (nth i H v0))
          (vsmul (- b) (vsmul (nth i (rev (svec us)) 0 * (nth i (exp_iter (finv y) N) 0 * nth i ufs 0)) (nth i H v0))))).
      - apply gsum_ext. intros i Hi. unfold hsc. rewrite (nth_map_seq (fun i => nth i ufs 0 * _)) by exact Hi. vring.
      - rewrite gsum_add. f_equal.
        + apply gsum_ext. intros i Hi. rewrite (nth_map_seq (fun i => nth i ufs 0 * _)) by exact Hi. reflexivity.
        + rewrite gsum_smul. transitivity (vsmul (- b) (gsum N (fun i => vsmul (nth i (zipw fmul (rev (svec us)) (zipw fmul (exp_iter (finv y) N) ufs)) 0) (nth i H v0)))); [|vring].
          f_equal. apply gsum_ext. intros i Hi. rewrite !nth_zipw_mul. reflexivity. }
    assert (EV : msm (map (fun c => c * (rr * fpow x op)) (wV fl)) (v_V t2) = vsmul (rr * fpow x op) (msm (wV fl) (v_V t2))).
    { rewrite <- (map_id (wV fl)) at 2. rewrite <- (msm_map_scale (rr * fpow x op) (fun c => c)). f_equal. apply map_ext. intros c. ring. }
    rewrite Eg, Eh, EV, (msm_map_scale rr (fun d => fpow x d)).
    unfold P_ipp, P_tx, expected. fold N op mid ov ufs yw ds a b. unfold delta_of. fold yw. cbn [msm]. vring.
  Qed.
End Split.
