(** * Special soundness of the inner-product argument *)

From Verif Require Export IPPProofs.
From Coq Require Import Lia.
Local Open Scope F_scope.

Section Sound.
  Context {F : Field} {V : VSpace F}.
  Add Field FFso : (f_th F).
  Local Open Scope V_scope.
  Implicit Types (us a b aL aR bL bR : list F) (G H Ls Rs GL GR HL HR : list V) (P Q L R : V) (u : F).

  (** linear combination of coefficient vectors *)
  Definition lin3 (N : nat) (c1 c2 c3 : F) (A1 A2 A3 : list F) : list F :=
    map (fun i => (c1 * nth i A1 0 + c2 * nth i A2 0 + c3 * nth i A3 0)%F) (seq 0 N).
  Lemma lin3_length N c1 c2 c3 A1 A2 A3 : length (lin3 N c1 c2 c3 A1 A2 A3) = N.
  Proof. unfold lin3. rewrite map_length, seq_length. reflexivity. Qed.
  Lemma nth_lin3 N c1 c2 c3 A1 A2 A3 i : (i < N)%nat ->
    nth i (lin3 N c1 c2 c3 A1 A2 A3) 0%F = (c1 * nth i A1 0 + c2 * nth i A2 0 + c3 * nth i A3 0)%F.
  Proof.
    intros Hi. unfold lin3.
    apply (nth_map_seq (fun i => (c1 * nth i A1 0 + c2 * nth i A2 0 + c3 * nth i A3 0)%F)). exact Hi.
  Qed.
  Lemma msm_lin3 N c1 c2 c3 A1 A2 A3 G : length G = N ->
    msm (lin3 N c1 c2 c3 A1 A2 A3) G = c1 ** msm A1 G + c2 ** msm A2 G + c3 ** msm A3 G.
  Proof.
    intros HG. rewrite (msm_gsum (lin3 _ _ _ _ _ _ _) G N), (msm_gsum A1 G N), (msm_gsum A2 G N), (msm_gsum A3 G N) by lia.
    rewrite <- !gsum_smul, <- !gsum_add. apply gsum_ext. intros i Hi. rewrite nth_lin3 by exact Hi. vring.
  Qed.

  Lemma all_zero_dec (f : list F) : Forall (fun x => x = 0%F) f \/ Exists (fun x => x <> 0%F) f.
  Proof.
    induction f as [|x f [IH|IH]]; [left; constructor| |right; apply Exists_cons_tl; exact IH].
    destruct (f_eq_dec x 0%F); [left; constructor; assumption|right; apply Exists_cons_hd; assumption].
  Qed.
  Lemma Forall_zero_nth (f : list F) i : Forall (fun x => x = 0%F) f -> nth i f 0%F = 0%F.
  Proof. intros H. revert i. induction H as [|x f Hx Hf IH]; intros [|i]; cbn; auto. Qed.

  Lemma NoDup4 (x1 x2 x3 x4 : F) : NoDup [x1; x2; x3; x4] ->
    x1 <> x2 /\ x1 <> x3 /\ x1 <> x4 /\ x2 <> x3 /\ x2 <> x4 /\ x3 <> x4.
  Proof.
    intros H. inversion H as [|? ? H1 H']; subst. inversion H' as [|? ? H2 H'']; subst. inversion H'' as [|? ? H3 _]; subst.
    cbn in *. repeat split; intro; subst; tauto.
  Qed.

  Lemma cubic_zero (X1 X2 X3 X4 c0 c1 c2 c3 : F) : NoDup [X1; X2; X3; X4] ->
    (forall X, In X [X1; X2; X3; X4] -> c0 + X * c1 + X * X * c2 + X * X * X * c3 = 0)%F ->
    c0 = 0%F /\ c1 = 0%F /\ c2 = 0%F /\ c3 = 0%F.
  Proof.
    intros Hnd Hr.
    assert (Hz : Forall (fun c => c = 0%F) [c0; c1; c2; c3]).
    { apply (roots_zero [c0; c1; c2; c3] [X1; X2; X3; X4]); [exact Hnd|cbn; lia|].
      rewrite Forall_forall. intros X HX. cbn [peval]. etransitivity; [|exact (Hr X HX)]. ring. }
    inversion Hz as [|? ? H0 Hz1]; subst. inversion Hz1 as [|? ? H1 Hz2]; subst. inversion Hz2 as [|? ? H2 Hz3]; subst.
    inversion Hz3 as [|? ? H3 _]; subst. auto.
  Qed.

  (** coefficients of the interpolation of [R + X P + X^2 L] *)
  Definition dn (X Y Z : F) : F := finv ((X - Y) * (X - Z))%F.

  Lemma interp_P (W1 W2 W3 P L R : V) (X1 X2 X3 : F) :
    X1 <> X2 -> X1 <> X3 -> X2 <> X3 ->
    R + X1 ** P + (X1 * X1)%F ** L = W1 -> R + X2 ** P + (X2 * X2)%F ** L = W2 -> R + X3 ** P + (X3 * X3)%F ** L = W3 ->
    P = (- ((X2 + X3) * dn X1 X2 X3))%F ** W1 + (- ((X1 + X3) * dn X2 X1 X3))%F ** W2 + (- ((X1 + X2) * dn X3 X1 X2))%F ** W3 /\
    L = dn X1 X2 X3 ** W1 + dn X2 X1 X3 ** W2 + dn X3 X1 X2 ** W3 /\
    R = (X2 * X3 * dn X1 X2 X3)%F ** W1 + (X1 * X3 * dn X2 X1 X3)%F ** W2 + (X1 * X2 * dn X3 X1 X2)%F ** W3.
  Proof.
    intros H12 H13 H23 <- <- <-. unfold dn.
    assert ((X1 - X2)%F <> 0%F) by (apply fsub_neq_0; assumption).
    assert ((X1 - X3)%F <> 0%F) by (apply fsub_neq_0; assumption).
    assert ((X2 - X3)%F <> 0%F) by (apply fsub_neq_0; assumption).
    assert ((X2 - X1)%F <> 0%F) by (apply fsub_neq_0; auto).
    assert ((X3 - X1)%F <> 0%F) by (apply fsub_neq_0; auto).
    assert ((X3 - X2)%F <> 0%F) by (apply fsub_neq_0; auto).
    repeat split; vlin; field; repeat split; assumption.
  Qed.

  (** interpolation passes through the given values *)
  Lemma interp_at (X1 X2 X3 w1 w2 w3 : F) : X1 <> X2 -> X1 <> X3 -> X2 <> X3 ->
    let p := (- ((X2 + X3) * dn X1 X2 X3) * w1 + - ((X1 + X3) * dn X2 X1 X3) * w2 + - ((X1 + X2) * dn X3 X1 X2) * w3)%F in
    let l := (dn X1 X2 X3 * w1 + dn X2 X1 X3 * w2 + dn X3 X1 X2 * w3)%F in
    let r := (X2 * X3 * dn X1 X2 X3 * w1 + X1 * X3 * dn X2 X1 X3 * w2 + X1 * X2 * dn X3 X1 X2 * w3)%F in
    (r + X1 * p + X1 * X1 * l = w1 /\ r + X2 * p + X2 * X2 * l = w2 /\ r + X3 * p + X3 * X3 * l = w3)%F.
  Proof.
    intros H12 H13 H23. unfold dn.
    assert ((X1 - X2)%F <> 0%F) by (apply fsub_neq_0; assumption).
    assert ((X1 - X3)%F <> 0%F) by (apply fsub_neq_0; assumption).
    assert ((X2 - X3)%F <> 0%F) by (apply fsub_neq_0; assumption).
    assert ((X2 - X1)%F <> 0%F) by (apply fsub_neq_0; auto).
    assert ((X3 - X1)%F <> 0%F) by (apply fsub_neq_0; auto).
    assert ((X3 - X2)%F <> 0%F) by (apply fsub_neq_0; auto).
    repeat split; field; repeat split; assumption.
  Qed.

  (** a representation of a point over [G], [H], [Q] *)
  Record Rep := mkRep { rG : list F; rH : list F; rQ : F }.
  (* vocabulary of specifications and proofs, no code modelled *)
  Definition rval Q G H (r : Rep) : V := msm (rG r) G + msm (rH r) H + rQ r ** Q.
  (* vocabulary of specifications and proofs, no code modelled *)
  Definition rlin N (c1 c2 c3 : F) (r1 r2 r3 : Rep) : Rep :=
    mkRep (lin3 N c1 c2 c3 (rG r1) (rG r2) (rG r3)) (lin3 N c1 c2 c3 (rH r1) (rH r2) (rH r3))
          (c1 * rQ r1 + c2 * rQ r2 + c3 * rQ r3)%F.
  Lemma rval_rlin Q G H N c1 c2 c3 r1 r2 r3 : length G = N -> length H = N ->
    rval Q G H (rlin N c1 c2 c3 r1 r2 r3) = c1 ** rval Q G H r1 + c2 ** rval Q G H r2 + c3 ** rval Q G H r3.
  Proof. intros HG HH. unfold rval, rlin. cbn [rG rH rQ]. rewrite !msm_lin3 by assumption. vring. Qed.

  (* vocabulary of specifications and proofs, no code modelled *)
  Definition zero_vec (f : list F) : bool := forallb (fun x => feqb x 0%F) f.
  Lemma zero_vec_true f : zero_vec f = true -> Forall (fun x => x = 0%F) f.
  Proof. intros H. apply Forall_forall. intros x Hx. apply feqb_true. unfold zero_vec in H. rewrite forallb_forall in H. apply H, Hx. Qed.
  Lemma zero_vec_false f : zero_vec f = false -> Exists (fun x => x <> 0%F) f.
  Proof. intros H. destruct (all_zero_dec f) as [Hz|He]; [|exact He]. exfalso. enough (zero_vec f = true) by congruence. apply forallb_forall. intros x Hx. rewrite Forall_forall in Hz. rewrite (Hz x Hx). apply feqb_refl. Qed.

  (** two representations of the same point agree, or their difference is a relation *)
  Definition rdiff (N : nat) (r s : Rep) : Rep := rlin N 1 (fopp 1) 0 r s r.
  (* vocabulary of specifications and proofs, no code modelled *)
  Definition rzero (d : Rep) : bool := zero_vec (rG d) && zero_vec (rH d) && feqb (rQ d) 0%F.
  Lemma rep_eq_or_relation Q G H N r s : length G = N -> length H = N ->
    rval Q G H r = rval Q G H s ->
    if rzero (rdiff N r s) then (forall i, (i < N)%nat -> nth i (rG r) 0%F = nth i (rG s) 0%F /\ nth i (rH r) 0%F = nth i (rH s) 0%F) /\ rQ r = rQ s
    else relation_by Q G H (rG (rdiff N r s)) (rH (rdiff N r s)) (rQ (rdiff N r s)).
  Proof.
    intros HG HH Heq.
    set (d := rdiff N r s).
    assert (Hd : rval Q G H d = 0).
    { unfold d, rdiff. rewrite rval_rlin by assumption. rewrite Heq. vring. }
    destruct (rzero d) eqn:Ez.
    - unfold rzero in Ez. apply andb_prop in Ez as [Ez H3]. apply andb_prop in Ez as [H1 H2]. apply zero_vec_true in H1, H2. apply feqb_true in H3. split.
      + intros i Hi. split; apply fsub_0_iff.
        * pose proof (Forall_zero_nth _ i H1) as Hz. unfold d, rdiff, rlin in Hz. cbn [rG] in Hz. rewrite nth_lin3 in Hz by exact Hi.
          etransitivity; [|exact Hz]. ring.
        * pose proof (Forall_zero_nth _ i H2) as Hz. unfold d, rdiff, rlin in Hz. cbn [rH] in Hz. rewrite nth_lin3 in Hz by exact Hi.
          etransitivity; [|exact Hz]. ring.
      + apply fsub_0_iff. unfold d, rdiff, rlin in H3. cbn [rQ] in H3. etransitivity; [|exact H3]. ring.
    - split; [unfold d, rdiff, rlin; cbn [rG]; rewrite lin3_length; auto|]. split; [unfold d, rdiff, rlin; cbn [rH]; rewrite lin3_length; auto|].
      split; [exact Hd|]. unfold rzero in Ez. apply Bool.andb_false_iff in Ez as [Ez|Ez]; [apply Bool.andb_false_iff in Ez as [Ez|Ez]|].
      + left. apply zero_vec_false, Ez.
      + right; left. apply zero_vec_false, Ez.
      + right; right. apply feqb_false, Ez.
  Qed.

  (** the representation over the unfolded generators *)
  Definition unfold_rep u a b : Rep :=
    mkRep (vscale (finv u) a ++ vscale u a) (vscale u b ++ vscale (finv u) b) (ip a b).
  Lemma rval_unfold u Q GL GR HL HR a b (c : F) n :
    length a = n -> length b = n -> length GL = n -> length GR = n -> length HL = n -> length HR = n ->
    rval Q (GL ++ GR) (HL ++ HR) (mkRep (vscale (finv u) a ++ vscale u a) (vscale u b ++ vscale (finv u) b) c) =
    msm a (fold_points n (fun _ => finv u) (fun _ => u) GL GR) +
    msm b (fold_points n (fun _ => u) (fun _ => finv u) HL HR) + c ** Q.
  Proof.
    intros. unfold rval. cbn [rG rH rQ]. rewrite !msm_app by (rewrite vscale_length; congruence).
    rewrite !msm_scale, !msm_fold_points by congruence. vring.
  Qed.

  Lemma Exists_vscale (c : F) a : c <> 0%F -> Exists (fun x => x <> 0%F) a -> Exists (fun x => x <> 0%F) (vscale c a).
  Proof.
    intros Hc He. unfold vscale. apply Exists_exists in He as (x & Hin & Hx). apply Exists_exists.
    exists (c * x)%F. split; [apply in_map; exact Hin|]. intros H. apply fmul_eq_0 in H. tauto.
  Qed.

  (* vocabulary of specifications and proofs, no code modelled *)
  Definition lift_rep (u : F) (d : Rep) : Rep :=
    mkRep (vscale (finv u) (rG d) ++ vscale u (rG d)) (vscale u (rH d) ++ vscale (finv u) (rH d)) (rQ d).
  Lemma relation_by_lift u Q GL GR HL HR n d : u <> 0%F ->
    length GL = n -> length GR = n -> length HL = n -> length HR = n ->
    relation_by Q (fold_points n (fun _ => finv u) (fun _ => u) GL GR)
                  (fold_points n (fun _ => u) (fun _ => finv u) HL HR) (rG d) (rH d) (rQ d) ->
    relation_by Q (GL ++ GR) (HL ++ HR) (rG (lift_rep u d)) (rH (lift_rep u d)) (rQ (lift_rep u d)).
  Proof.
    destruct d as [a b c]. unfold lift_rep. cbn [rG rH rQ].
    intros Hu HGL HGR HHL HHR (Ha & Hb & Hz & Hnt). rewrite length_fold_points in Ha, Hb. unfold relation_by.
    rewrite !app_length, !vscale_length. split; [lia|]. split; [lia|]. split.
    - rewrite <- Hz. apply (rval_unfold u Q GL GR HL HR a b c n); assumption.
    - destruct Hnt as [He|[He|He]].
      + left. apply Exists_app. right. apply Exists_vscale; assumption.
      + right; left. apply Exists_app. left. apply Exists_vscale; assumption.
      + right; right. exact He.
  Qed.
  Lemma relation_lift u Q GL GR HL HR n : u <> 0%F ->
    length GL = n -> length GR = n -> length HL = n -> length HR = n ->
    nontrivial_relation Q (fold_points n (fun _ => finv u) (fun _ => u) GL GR)
                          (fold_points n (fun _ => u) (fun _ => finv u) HL HR) ->
    nontrivial_relation Q (GL ++ GR) (HL ++ HR).
  Proof.
    intros Hu HGL HGR HHL HHR (a & b & c & H). do 3 eexists. exact (relation_by_lift u Q GL GR HL HR n (mkRep a b c) Hu HGL HGR HHL HHR H).
  Qed.

  (** one coordinate: the low and high halves are linked *)
  Lemma coord_link (u1 u2 u3 u4 : F) (f : F -> F) (lL lP lR hL hP hR : F) :
    Forall (fun u => u <> 0%F) [u1; u2; u3; u4] -> NoDup (map (fun u => (u * u)%F) [u1; u2; u3; u4]) ->
    (forall u, In u [u1; u2; u3; u4] ->
      (lR + (u * u) * lP + (u * u) * (u * u) * lL = u * u * (finv u * f u) /\
       hR + (u * u) * hP + (u * u) * (u * u) * hL = u * u * (u * f u))%F) ->
    lL = 0%F /\ hR = 0%F /\ hL = lP /\ lR = hP.
  Proof.
    intros Hnz Hnd Hf. cbn [map] in Hnd.
    destruct (cubic_zero _ _ _ _ (- hR)%F (lR - hP)%F (lP - hL)%F lL Hnd) as (H0 & H1 & H2 & H3).
    - intros X HX. apply (in_map_iff (fun u => (u * u)%F) [u1; u2; u3; u4]) in HX as (u & <- & Hin).
      destruct (Hf u Hin) as [E1 E2].
      assert (Hu : u <> 0%F) by (rewrite Forall_forall in Hnz; apply Hnz; exact Hin).
      transitivity (u * u * (lR + (u * u) * lP + (u * u) * (u * u) * lL) - (hR + (u * u) * hP + (u * u) * (u * u) * hL))%F; [ring|].
      rewrite E1, E2. field. exact Hu.
    - repeat split.
      + exact H3.
      + transitivity (- - hR)%F; [ring|]. rewrite H0. ring.
      + symmetry. apply fsub_0_iff. exact H2.
      + apply fsub_0_iff. exact H1.
  Qed.

  (* vocabulary of specifications and proofs, no code modelled *)
  Definition has_opening Q G H P : Prop :=
    exists a b, length a = length G /\ length b = length H /\ P = pcom Q G H a b.

  (** what an extraction gives: an opening, or a relation *)
  Definition extracted_ok Q G H P (x : list F * list F + Rep) : Prop :=
    match x with
    | inl (a, b) => length a = length G /\ length b = length H /\ P = pcom Q G H a b
    | inr d => relation_by Q G H (rG d) (rH d) (rQ d)
    end.
  Lemma extracted_ok_or Q G H P x : extracted_ok Q G H P x -> has_opening Q G H P \/ nontrivial_relation Q G H.
  Proof. destruct x as [[a b]|[a b c]]; intros Hx; [left; exists a, b; exact Hx|right; exists a, b, c; exact Hx]. Qed.

  (** extraction of one round, from the openings for four challenges *)
  Definition step_ext (n : nat) (u1 u2 u3 u4 : F) (a b : F -> list F) : list F * list F + Rep :=
    let N := (n + n)%nat in let X := fun u : F => (u * u)%F in
    let W := fun u => let r := unfold_rep u (a u) (b u) in rlin N (X u) 0 0 r r r in
    let rP := rlin N (- ((X u2 + X u3) * dn (X u1) (X u2) (X u3)))%F (- ((X u1 + X u3) * dn (X u2) (X u1) (X u3)))%F
                      (- ((X u1 + X u2) * dn (X u3) (X u1) (X u2)))%F (W u1) (W u2) (W u3) in
    let rL := rlin N (dn (X u1) (X u2) (X u3)) (dn (X u2) (X u1) (X u3)) (dn (X u3) (X u1) (X u2)) (W u1) (W u2) (W u3) in
    let rR := rlin N (X u2 * X u3 * dn (X u1) (X u2) (X u3))%F (X u1 * X u3 * dn (X u2) (X u1) (X u3))%F
                      (X u1 * X u2 * dn (X u3) (X u1) (X u2))%F (W u1) (W u2) (W u3) in
    let d := rdiff N (rlin N 1 (X u4) (X u4 * X u4)%F rR rP rL) (W u4) in
    if rzero d then inl (rG rP, rH rP) else inr d.

  Section Step.
    Variables (n : nat) (Q P L R : V) (GL GR HL HR : list V).
    Hypotheses (HGL : length GL = n) (HGR : length GR = n) (HHL : length HL = n) (HHR : length HR = n).
    Variables (u1 u2 u3 u4 : F).
    Hypotheses (Hnz : Forall (fun u => u <> 0%F) [u1; u2; u3; u4])
               (Hnd : NoDup (map (fun u => (u * u)%F) [u1; u2; u3; u4])).
    Variables (a b : F -> list F).
    Hypothesis Hab : forall u, In u [u1; u2; u3; u4] ->
      length (a u) = n /\ length (b u) = n /\
      P + (u * u)%F ** L + (finv u * finv u)%F ** R =
      pcom Q (fold_points n (fun _ => finv u) (fun _ => u) GL GR)
             (fold_points n (fun _ => u) (fun _ => finv u) HL HR) (a u) (b u).

    Lemma step_by : extracted_ok Q (GL ++ GR) (HL ++ HR) P (step_ext n u1 u2 u3 u4 a b).
    Proof.
      set (G := GL ++ GR). set (H := HL ++ HR). set (N := (n + n)%nat).
      assert (HG : length G = N) by (unfold G; rewrite app_length; lia).
      assert (HH : length H = N) by (unfold H; rewrite app_length; lia).
      set (X := fun u : F => (u * u)%F).
      assert (Hu : forall u, In u [u1; u2; u3; u4] -> u <> 0%F) by (intros u Hin; rewrite Forall_forall in Hnz; apply Hnz; exact Hin).
      (* scaled representations *)
      set (W := fun u => let r := unfold_rep u (a u) (b u) in rlin N (X u) 0 0 r r r).
      assert (HW : forall u, In u [u1; u2; u3; u4] -> R + X u ** P + (X u * X u)%F ** L = rval Q G H (W u)).
      { intros u Hin. destruct (Hab u Hin) as (Hla & Hlb & Heq). unfold W. cbv zeta.
        rewrite rval_rlin by assumption. unfold unfold_rep, G, H.
        rewrite (rval_unfold u Q GL GR HL HR (a u) (b u) _ n) by assumption. fold (pcom Q (fold_points n (fun _ => finv u) (fun _ => u) GL GR)
             (fold_points n (fun _ => u) (fun _ => finv u) HL HR) (a u) (b u)).
        rewrite <- Heq. unfold X.
        assert (Hi : (u * u * (finv u * finv u))%F = 1%F) by (field; apply Hu; exact Hin).
        transitivity ((u * u)%F ** (P + (u * u)%F ** L) + (u * u * (finv u * finv u))%F ** R); [rewrite Hi; vring|vring]. }
      assert (Hin1 : In u1 [u1; u2; u3; u4]) by (cbn; tauto). assert (Hin2 : In u2 [u1; u2; u3; u4]) by (cbn; tauto).
      assert (Hin3 : In u3 [u1; u2; u3; u4]) by (cbn; tauto). assert (Hin4 : In u4 [u1; u2; u3; u4]) by (cbn; tauto).
      pose proof (NoDup4 _ _ _ _ Hnd) as (H12 & H13 & H14 & H23 & H24 & H34).
      fold (X u1) (X u2) (X u3) (X u4) in H12, H13, H14, H23, H24, H34.
      destruct (interp_P _ _ _ P L R (X u1) (X u2) (X u3) H12 H13 H23 (HW u1 Hin1) (HW u2 Hin2) (HW u3 Hin3)) as (EP & EL & ER).
      set (rP := rlin N (- ((X u2 + X u3) * dn (X u1) (X u2) (X u3)))%F (- ((X u1 + X u3) * dn (X u2) (X u1) (X u3)))%F
                      (- ((X u1 + X u2) * dn (X u3) (X u1) (X u2)))%F (W u1) (W u2) (W u3)).
      set (rL := rlin N (dn (X u1) (X u2) (X u3)) (dn (X u2) (X u1) (X u3)) (dn (X u3) (X u1) (X u2)) (W u1) (W u2) (W u3)).
      set (rR := rlin N (X u2 * X u3 * dn (X u1) (X u2) (X u3))%F (X u1 * X u3 * dn (X u2) (X u1) (X u3))%F
                      (X u1 * X u2 * dn (X u3) (X u1) (X u2))%F (W u1) (W u2) (W u3)).
      assert (VP : P = rval Q G H rP) by (unfold rP; rewrite rval_rlin by assumption; exact EP).
      assert (VL : L = rval Q G H rL) by (unfold rL; rewrite rval_rlin by assumption; exact EL).
      assert (VR : R = rval Q G H rR) by (unfold rR; rewrite rval_rlin by assumption; exact ER).
      assert (Hrep : rval Q G H (rlin N 1 (X u4) (X u4 * X u4)%F rR rP rL) = rval Q G H (W u4)).
      { rewrite rval_rlin by assumption. rewrite <- VP, <- VL, <- VR, <- HW by exact Hin4. vring. }
      apply (rep_eq_or_relation Q G H N) in Hrep; [|exact HG|exact HH].
      change (extracted_ok Q G H P (if rzero (rdiff N (rlin N 1 (X u4) (X u4 * X u4)%F rR rP rL) (W u4)) then inl (rG rP, rH rP) else inr (rdiff N (rlin N 1 (X u4) (X u4 * X u4)%F rR rP rL) (W u4)))).
      destruct (rzero _); [|exact Hrep]. destruct Hrep as [E4 E4Q]. cbn [extracted_ok].
      (* every challenge satisfies the coefficient equations *)
      assert (Hco : forall u, In u [u1; u2; u3; u4] ->
        (forall i, (i < N)%nat ->
          (nth i (rG rR) 0 + X u * nth i (rG rP) 0 + X u * X u * nth i (rG rL) 0 = X u * nth i (vscale (finv u) (a u) ++ vscale u (a u)) 0 /\
           nth i (rH rR) 0 + X u * nth i (rH rP) 0 + X u * X u * nth i (rH rL) 0 = X u * nth i (vscale u (b u) ++ vscale (finv u) (b u)) 0)%F) /\
        (rQ rR + X u * rQ rP + X u * X u * rQ rL = X u * ip (a u) (b u))%F).
      { assert (HWc : forall u i, (i < N)%nat -> nth i (rG (W u)) 0%F = (X u * nth i (vscale (finv u) (a u) ++ vscale u (a u)) 0)%F /\
                   nth i (rH (W u)) 0%F = (X u * nth i (vscale u (b u) ++ vscale (finv u) (b u)) 0)%F).
        { intros u i Hi. unfold W, unfold_rep, rlin. cbn [rG rH]. rewrite !nth_lin3 by exact Hi. split; ring. }
        assert (HWq : forall u, rQ (W u) = (X u * ip (a u) (b u))%F).
        { intros u. unfold W, unfold_rep, rlin. cbn [rQ]. ring. }
        intros u Hin. split.
        - intros i Hi. rewrite <- (proj1 (HWc u i Hi)), <- (proj2 (HWc u i Hi)).
          destruct Hin as [<-|[<-|[<-|[<-|[]]]]].
          1-3: unfold rR, rP, rL, rlin; cbn [rG rH]; rewrite !nth_lin3 by exact Hi; split; apply interp_at; assumption.
          destruct (E4 i Hi) as [Ea Eb]. rewrite <- Ea, <- Eb. unfold rlin. cbn [rG rH].
          rewrite !nth_lin3 by exact Hi. split; ring.
        - rewrite <- HWq. destruct Hin as [<-|[<-|[<-|[<-|[]]]]].
          1-3: unfold rR, rP, rL, rlin; cbn [rQ]; apply interp_at; assumption.
          rewrite <- E4Q. unfold rlin. cbn [rQ]. ring. }
      clear E4 E4Q.
      assert (Hlen : length (rG rP) = N /\ length (rH rP) = N) by (unfold rP, rlin; cbn [rG rH]; rewrite !lin3_length; auto).
      clearbody rP rL rR.
      assert (Hsplit : forall (c d : F) (x : list F) i, length x = n -> (i < n)%nat ->
        nth i (vscale c x ++ vscale d x) 0%F = (c * nth i x 0)%F /\ nth (n + i) (vscale c x ++ vscale d x) 0%F = (d * nth i x 0)%F).
      { intros c d x i Hx Hi. rewrite !nth_app0, !nth_vscale, vscale_length, Hx.
        destruct (Nat.ltb_spec i n); [|lia]. destruct (Nat.ltb_spec (n + i) n); [lia|].
        replace (n + i - n)%nat with i by lia. split; reflexivity. }
      (* the coordinates of the folded witnesses *)
      assert (Hlink : forall i, (i < n)%nat ->
        (nth i (rG rR) 0 = nth (n + i) (rG rP) 0 /\ nth i (rG rL) 0 = 0)%F /\
        (nth (n + i) (rH rR) 0 = nth i (rH rP) 0 /\ nth (n + i) (rH rL) 0 = 0)%F).
      { intros i Hi. split.
        - destruct (coord_link u1 u2 u3 u4 (fun u => nth i (a u) 0%F)
            (nth i (rG rL) 0%F) (nth i (rG rP) 0%F) (nth i (rG rR) 0%F)
            (nth (n + i) (rG rL) 0%F) (nth (n + i) (rG rP) 0%F) (nth (n + i) (rG rR) 0%F) Hnz Hnd) as (Q1 & Q2 & Q3 & Q4); [|auto].
          intros u Hin. destruct (Hab u Hin) as (Hla & _). destruct (Hco u Hin) as [Hc _].
          destruct (Hc i ltac:(lia)) as [C1 _]. destruct (Hc (n + i)%nat ltac:(lia)) as [C2 _].
          destruct (Hsplit (finv u) u (a u) i Hla Hi) as [S1 S2].
          rewrite S1 in C1. rewrite S2 in C2. unfold X in C1, C2. split; assumption.
        - destruct (coord_link u1 u2 u3 u4 (fun u => nth i (b u) 0%F)
            (nth (n + i) (rH rL) 0%F) (nth (n + i) (rH rP) 0%F) (nth (n + i) (rH rR) 0%F)
            (nth i (rH rL) 0%F) (nth i (rH rP) 0%F) (nth i (rH rR) 0%F) Hnz Hnd) as (Q1 & Q2 & Q3 & Q4); [|auto].
          intros u Hin. destruct (Hab u Hin) as (_ & Hlb & _). destruct (Hco u Hin) as [Hc _].
          destruct (Hc i ltac:(lia)) as [_ C1]. destruct (Hc (n + i)%nat ltac:(lia)) as [_ C2].
          destruct (Hsplit u (finv u) (b u) i Hlb Hi) as [S1 S2].
          rewrite S1 in C1. rewrite S2 in C2. unfold X in C1, C2. split; assumption. }
      set (aP := rG rP) in *. set (bP := rH rP) in *.
      assert (Hipu : forall u, In u [u1; u2; u3; u4] ->
        (X u * ip (a u) (b u) =
         fsum n (fun i => nth (n + i) aP 0 * nth i bP 0) +
         X u * (fsum n (fun i => nth i aP 0 * nth i bP 0) + fsum n (fun i => nth (n + i) aP 0 * nth (n + i) bP 0)) +
         X u * X u * fsum n (fun i => nth i aP 0 * nth (n + i) bP 0))%F).
      { intros u Hin. destruct (Hab u Hin) as (Hla & Hlb & _). destruct (Hco u Hin) as [Hc _].
        rewrite (ip_fsum (a u) (b u) n) by lia.
        rewrite <- fsum_add, <- !fsum_scale, <- !fsum_add. apply fsum_ext. intros i Hi.
        destruct (Hlink i Hi) as ((L1 & L2) & (L3 & L4)).
        destruct (Hc i ltac:(lia)) as [C1 _]. destruct (Hc (n + i)%nat ltac:(lia)) as [_ C2].
        destruct (Hsplit (finv u) u (a u) i Hla Hi) as [S1 _]. destruct (Hsplit u (finv u) (b u) i Hlb Hi) as [_ S2].
        rewrite S1, L1, L2 in C1. rewrite S2, L3, L4 in C2.
        unfold X in *. pose proof (Hu u Hin) as Hne.
        assert (Ea : (nth i (a u) 0 = finv u * nth (n + i) aP 0 + u * nth i aP 0)%F).
        { transitivity (finv u * (u * u * (finv u * nth i (a u) 0)))%F; [field; exact Hne|]. rewrite <- C1. field. exact Hne. }
        assert (Eb : (nth i (b u) 0 = finv u * nth i bP 0 + u * nth (n + i) bP 0)%F).
        { transitivity (finv u * (u * u * (finv u * nth i (b u) 0)))%F; [field; exact Hne|]. rewrite <- C2. field. exact Hne. }
        rewrite Ea, Eb. field. exact Hne. }
      assert (HQ : rQ rP = ip aP bP).
      { destruct Hlen as [HlA HlB].
        rewrite (ip_fsum aP bP N) by lia. unfold N. rewrite fsum_split.
        destruct (cubic_zero _ _ _ _
          (rQ rR - fsum n (fun i => nth (n + i) aP 0 * nth i bP 0))%F
          (rQ rP - (fsum n (fun i => nth i aP 0 * nth i bP 0) + fsum n (fun i => nth (n + i) aP 0 * nth (n + i) bP 0)))%F
          (rQ rL - fsum n (fun i => nth i aP 0 * nth (n + i) bP 0))%F 0%F Hnd) as (_ & H1 & _).
        - intros Y HY. apply (in_map_iff X [u1; u2; u3; u4]) in HY as (u & <- & Hin).
          destruct (Hco u Hin) as [_ Hq]. pose proof (Hipu u Hin) as Hi. rewrite <- Hq in Hi.
          apply fsub_0_iff in Hi. etransitivity; [|exact Hi]. ring.
        - apply fsub_0_iff. exact H1. }
      destruct Hlen as [HlA HlB]. split; [congruence|]. split; [congruence|].
      rewrite VP. unfold pcom, rval. rewrite <- HQ. reflexivity.
    Qed.
    Lemma step : has_opening Q (GL ++ GR) (HL ++ HR) P \/ nontrivial_relation Q (GL ++ GR) (HL ++ HR).
    Proof. exact (extracted_ok_or _ _ _ _ _ step_by). Qed.
  End Step.

  (** extraction from a whole tree, from its scalars alone *)
  Fixpoint tree_ext (k : nat) (t : stree F) : list F * list F + Rep :=
    match k, t with
    | S k', SNode u1 t1 u2 t2 u3 t3 u4 t4 =>
      match tree_ext k' t1, tree_ext k' t2, tree_ext k' t3, tree_ext k' t4 with
      | inl (a1, b1), inl (a2, b2), inl (a3, b3), inl (a4, b4) =>
        let sel := fun (x1 x2 x3 x4 : list F) (u : F) => if feqb u u1 then x1 else if feqb u u2 then x2 else if feqb u u3 then x3 else x4 in
        step_ext (2 ^ k') u1 u2 u3 u4 (sel a1 a2 a3 a4) (sel b1 b2 b3 b4)
      | inr d, _, _, _ => inr (lift_rep u1 d)
      | _, inr d, _, _ => inr (lift_rep u2 d)
      | _, _, inr d, _ => inr (lift_rep u3 d)
      | _, _, _, inr d => inr (lift_rep u4 d)
      end
    | _, SLeaf a b => inl ([a], [b])
    | _, _ => inl ([], [])
    end.

  Lemma tree_sound k : forall t Q G H P,
    length G = (2 ^ k)%nat -> length H = (2 ^ k)%nat -> well_branched k t ->
    (forall us Ls Rs (a b : F), branch t us Ls Rs a b -> P = expected us Ls Rs a b Q G H) ->
    extracted_ok Q G H P (tree_ext k (scalars_of t)).
  Proof.
    induction k as [|k IH]; intros t Q G H P HG HH Hwb Hacc.
    - destruct t as [a b|]; [|destruct Hwb]. cbn [scalars_of tree_ext extracted_ok].
      cbn in HG, HH. destruct G as [|g [|]]; try discriminate. destruct H as [|h [|]]; try discriminate.
      split; [reflexivity|]. split; [reflexivity|]. rewrite (Hacc [] [] [] a b) by constructor.
      unfold expected, pcom. cbn. vring.
    - destruct t as [|L R u1 t1 u2 t2 u3 t3 u4 t4]; [destruct Hwb|].
      cbn [well_branched] in Hwb. destruct Hwb as (Hnz & Hnd & W1 & W2 & W3 & W4).
      set (n := (2 ^ k)%nat) in *.
      assert (Hn2 : (2 ^ S k)%nat = (n + n)%nat) by (rewrite Nat.pow_succ_r'; lia).
      rewrite Hn2 in HG, HH.
      assert (HGL : length (firstn n G) = n) by (rewrite firstn_length; lia).
      assert (HGR : length (skipn n G) = n) by (rewrite skipn_length; lia).
      assert (HHL : length (firstn n H) = n) by (rewrite firstn_length; lia).
      assert (HHR : length (skipn n H) = n) by (rewrite skipn_length; lia).
      rewrite <- (firstn_skipn n G), <- (firstn_skipn n H).
      rewrite <- (firstn_skipn n G), <- (firstn_skipn n H) in Hacc.
      set (GL := firstn n G) in *. set (GR := skipn n G) in *. set (HL := firstn n H) in *. set (HR := skipn n H) in *.
      pose proof (proj1 (Forall_forall _ _) Hnz) as Hu.
      assert (Hchild : forall u t, In u [u1; u2; u3; u4] -> well_branched k t ->
        (forall us Ls Rs (a b : F), branch t us Ls Rs a b -> branch (Node L R u1 t1 u2 t2 u3 t3 u4 t4) (u :: us) (L :: Ls) (R :: Rs) a b) ->
        extracted_ok Q (fold_points n (fun _ => finv u) (fun _ => u) GL GR) (fold_points n (fun _ => u) (fun _ => finv u) HL HR)
          (P + (u * u)%F ** L + (finv u * finv u)%F ** R) (tree_ext k (scalars_of t))).
      { intros u t Hin Hwb Hbr.
        apply (IH t Q (fold_points n (fun _ => finv u) (fun _ => u) GL GR) (fold_points n (fun _ => u) (fun _ => finv u) HL HR)
          (P + (u * u)%F ** L + (finv u * finv u)%F ** R)).
        - rewrite length_fold_points. reflexivity.
        - rewrite length_fold_points. reflexivity.
        - exact Hwb.
        - intros us Ls Rs a b Hb.
          assert (Hus : length us = k).
          { clear - Hb Hwb. revert t us Ls Rs Hb Hwb. induction k as [|k IH]; intros t us Ls Rs Hb Hwb; destruct t; cbn in Hwb; try contradiction.
            - inversion Hb; reflexivity.
            - destruct Hwb as (_ & _ & W1 & W2 & W3 & W4). inversion Hb; subst; cbn; f_equal; eapply IH; eassumption. }
          rewrite (Hacc _ _ _ _ _ (Hbr _ _ _ _ _ Hb)).
          rewrite (expected_fold u us L Ls R Rs a b Q GL GR HL HR n) by (assumption || (unfold n; congruence)).
          rewrite inv_or_zero_inv by (apply Hu; exact Hin). vring.
        }
      assert (Hlift : forall u d, In u [u1; u2; u3; u4] ->
        extracted_ok Q (fold_points n (fun _ => finv u) (fun _ => u) GL GR) (fold_points n (fun _ => u) (fun _ => finv u) HL HR) (P + (u * u)%F ** L + (finv u * finv u)%F ** R) (inr d) ->
        extracted_ok Q (GL ++ GR) (HL ++ HR) P (inr (lift_rep u d))).
      { intros u d Hin Hd. cbn [extracted_ok] in *. apply (relation_by_lift u Q GL GR HL HR n); auto. }
      cbn [scalars_of tree_ext].
      pose proof (Hchild u1 t1 ltac:(cbn; tauto) W1 ltac:(intros; constructor; assumption)) as O1.
      pose proof (Hchild u2 t2 ltac:(cbn; tauto) W2 ltac:(intros; apply br_2; assumption)) as O2.
      pose proof (Hchild u3 t3 ltac:(cbn; tauto) W3 ltac:(intros; apply br_3; assumption)) as O3.
      pose proof (Hchild u4 t4 ltac:(cbn; tauto) W4 ltac:(intros; apply br_4; assumption)) as O4.
      destruct (tree_ext k (scalars_of t1)) as [[a1 b1]|d1]; [|apply (Hlift u1); [cbn; tauto|exact O1]].
      destruct (tree_ext k (scalars_of t2)) as [[a2 b2]|d2]; [|apply (Hlift u2); [cbn; tauto|exact O2]].
      destruct (tree_ext k (scalars_of t3)) as [[a3 b3]|d3]; [|apply (Hlift u3); [cbn; tauto|exact O3]].
      destruct (tree_ext k (scalars_of t4)) as [[a4 b4]|d4]; [|apply (Hlift u4); [cbn; tauto|exact O4]].
      cbn [extracted_ok] in O1, O2, O3, O4. rewrite !length_fold_points in O1, O2, O3, O4.
      apply (step_by n Q P L R GL GR HL HR HGL HGR HHL HHR u1 u2 u3 u4 Hnz Hnd).
      intros u Hin. cbv beta zeta.
      destruct (feqb_spec F u u1) as [->|]; [auto|]. destruct (feqb_spec F u u2) as [->|]; [auto|].
      destruct (feqb_spec F u u3) as [->|]; [auto|].
      destruct Hin as [<-|[<-|[<-|[<-|[]]]]]; try contradiction. auto.
  Qed.

  Lemma ipp_sound k t Gf Hf P Q G H :
    length G = (2 ^ k)%nat -> length H = length G -> length Gf = length G -> length Hf = length G ->
    well_branched k t ->
    (forall us Ls Rs (a b : F), branch t us Ls Rs a b -> accepted Gf Hf P Q G H us Ls Rs a b) ->
    match tree_ext k (scalars_of t) with
    | inl (a, b) => length a = length G /\ length b = length G /\ P = ipp_statement Q Gf Hf G H a b
    | inr d => relation_by Q (scaled Gf G) (scaled Hf H) (rG d) (rH d) (rQ d)
    end.
  Proof.
    intros HG HH HGf HHf Hwb Hacc.
    assert (Hx : extracted_ok Q (scaled Gf G) (scaled Hf H) P (tree_ext k (scalars_of t))); [apply tree_sound|].
    - rewrite scaled_length; congruence.
    - rewrite scaled_length; congruence.
    - exact Hwb.
    - intros us Ls Rs a b Hbr. destruct (Hacc _ _ _ _ _ Hbr) as (E & tr & tr' & Hch & Hv).
      assert (HLR : length Rs = length Ls).
      { clear - Hbr. induction Hbr; cbn; congruence. }
      assert (Hr : exists r, ipp_verification_scalars E (mkIPP Ls Rs a b) (length G) tr = Some (Ok r)).
      { unfold ipp_verify in Hv. destruct (ipp_verification_scalars _ _ _ _) as [[r|]|]; try discriminate. exists r. reflexivity. }
      destruct Hr as [r Hr]. apply verification_scalars_spec in Hr as (us' & tr2 & Hch' & Hlt & Hn & Hlu & _).
      cbn [ipp_L ipp_R] in *. rewrite Hch in Hch'. injection Hch' as <- <-.
      rewrite (verify_spec E us tr tr') in Hv by (assumption || congruence).
      destruct (veqb_spec _ _ (expected us Ls Rs a b Q (scaled Gf G) (scaled Hf H)) P) as [He|]; [symmetry; exact He|discriminate].
    - destruct (tree_ext k (scalars_of t)) as [[a b]|d]; [|exact Hx]. destruct Hx as (Ha & Hb & Heq). rewrite scaled_length in Ha, Hb by congruence.
      split; [exact Ha|]. split; [congruence|]. rewrite Heq. unfold ipp_statement, pcom. rewrite !msm_zipw_mul. reflexivity.
  Qed.
End Sound.
