(** * Counting bad challenges; Laurent polynomials; the coefficient of the gate equations *)
From Verif Require Import SoundSpec UtilProofs FlatProofs R1CSPoly.
Local Open Scope F_scope.

Section Count.
  Context {F : Field}.
  Add Field FFcnt : (f_th F).

  Lemma at_most_weaken {A} k k' (P Q : A -> Prop) : (k <= k')%nat -> (forall a, Q a -> P a) -> at_most k P -> at_most k' Q.
  Proof. intros Hk HQ HP l Hnd Hl. specialize (HP l Hnd). rewrite HP; [exact Hk|]. eapply Forall_impl; [|exact Hl]. exact HQ. Qed.

  Lemma filter_length_split {A} (f : A -> bool) (l : list A) : (length l = length (filter f l) + length (filter (fun a => negb (f a)) l))%nat.
  Proof. induction l as [|a l IH]; [reflexivity|]. cbn [filter]. destruct (f a); cbn [negb length]; lia. Qed.

  (** one more value is bad *)
  Lemma at_most_or_eq k c (P : F -> Prop) : at_most k (fun a => a <> c /\ P a) -> at_most (S k) (fun a => a = c \/ P a).
  Proof.
    intros HP l Hnd Hl. rewrite (filter_length_split (fun a => feqb a c) l).
    assert (H1 : (length (filter (fun a => feqb a c) l) <= 1)%nat).
    { assert (Hf : Forall (fun a => a = c) (filter (fun a => feqb a c) l)).
      { apply Forall_forall. intros a Ha. apply filter_In in Ha as [_ Ha]. apply feqb_true. exact Ha. }
      pose proof (NoDup_filter (fun a => feqb a c) Hnd) as Hn. destruct (filter (fun a => feqb a c) l) as [|a [|b r]]; cbn; try lia.
      exfalso. inversion Hf as [|? ? Ha Hf']; subst. inversion Hf' as [|? ? Hb _]; subst. inversion Hn as [|? ? Hni _]; subst. apply Hni. left. reflexivity. }
    assert (H2 : (length (filter (fun a => negb (feqb a c)) l) <= k)%nat).
    { apply HP; [apply NoDup_filter; exact Hnd|]. apply Forall_forall. intros a Ha. apply filter_In in Ha as [Hin Ha].
      apply negb_true_iff, feqb_false in Ha. split; [exact Ha|]. rewrite Forall_forall in Hl. destruct (Hl a Hin); [contradiction|assumption]. }
    lia.
  Qed.

  (** roots of a non-zero polynomial *)
  Lemma at_most_roots k (cs : list F) : (length cs <= S k)%nat -> at_most k (fun x => Exists (fun c => c <> 0) cs /\ peval cs x = 0).
  Proof.
    intros Hk l Hnd Hl. destruct l as [|a l]; [cbn; lia|].
    assert (He : Exists (fun c => c <> 0) cs) by (inversion Hl as [|? ? [H _] _]; subst; exact H).
    pose proof (roots_bound cs (a :: l) He Hnd) as H.
    assert (length (a :: l) < length cs)%nat; [|lia]. apply H. eapply Forall_impl; [|exact Hl]. intros ? [_ H1]; exact H1.
  Qed.

  (** a value that is not all zero times a linear form: one root *)
  Lemma at_most_linear {V : VSpace F} (P Q : V) : at_most 1 (fun r : F => Q <> v0 /\ vadd P (vsmul r Q) = v0).
  Proof.
    intros l Hnd Hl. destruct l as [|a [|b l]]; cbn; try lia. exfalso.
    inversion Hl as [|? ? [HQ Ha] Hl']; subst. inversion Hl' as [|? ? [_ Hb] _]; subst.
    inversion Hnd as [|? ? Hni _]; subst. apply Hni. left. symmetry. apply (vsmul_inj_l a b Q HQ).
    apply (vadd_cancel_l P). congruence.
  Qed.

  (** four values with distinct squares among seven *)
  Lemma filter_square (c : F) l : NoDup l -> (length l <= 2 + length (filter (fun a => negb (feqb (a * a) (c * c))) l))%nat.
  Proof.
    intros Hnd. rewrite (filter_length_split (fun a => feqb (a * a) (c * c)) l) at 1.
    assert (length (filter (fun a => feqb (a * a) (c * c)) l) <= 2)%nat; [|lia].
    pose proof (NoDup_filter (fun a => feqb (a * a) (c * c)) Hnd) as Hn.
    assert (Hf : Forall (fun a => a = c \/ a = - c) (filter (fun a => feqb (a * a) (c * c)) l)).
    { apply Forall_forall. intros a Ha. apply filter_In in Ha as [_ Ha]. apply feqb_true in Ha. apply fsqr_eq. exact Ha. }
    destruct (filter (fun a => feqb (a * a) (c * c)) l) as [|a1 [|a2 [|a3 r]]]; cbn; try lia. exfalso.
    inversion Hf as [|? ? H1 Hf1]; subst. inversion Hf1 as [|? ? H2 Hf2]; subst. inversion Hf2 as [|? ? H3 _]; subst.
    inversion Hn as [|? ? N1 Hn1]; subst. inversion Hn1 as [|? ? N2 _]; subst. cbn [In] in N1, N2.
    destruct H1 as [-> | ->], H2 as [-> | ->], H3 as [-> | ->]; tauto.
  Qed.
  Lemma four_squares (P : F -> Prop) l : NoDup l -> Forall P l -> (7 <= length l)%nat ->
    exists u1 u2 u3 u4, Forall P [u1; u2; u3; u4] /\ NoDup (map (fun u => u * u) [u1; u2; u3; u4]).
  Proof.
    intros Hnd Hl Hlen.
    destruct l as [|u1 l1]; [cbn in Hlen; lia|].
    pose proof (filter_square u1 (u1 :: l1) Hnd) as F1. set (m1 := filter (fun a => negb (feqb (a * a) (u1 * u1))) (u1 :: l1)) in *.
    assert (I1 : forall a, In a m1 -> In a (u1 :: l1) /\ a * a <> u1 * u1).
    { intros a Ha. apply filter_In in Ha as [Hin Ha]. apply negb_true_iff, feqb_false in Ha. auto. }
    assert (Hn1 : NoDup m1) by (apply NoDup_filter; exact Hnd).
    destruct m1 as [|u2 l2] eqn:E1; [cbn in *; lia|].
    pose proof (filter_square u2 (u2 :: l2) Hn1) as F2. set (m2 := filter (fun a => negb (feqb (a * a) (u2 * u2))) (u2 :: l2)) in *.
    assert (I2 : forall a, In a m2 -> In a (u2 :: l2) /\ a * a <> u2 * u2).
    { intros a Ha. apply filter_In in Ha as [Hin Ha]. apply negb_true_iff, feqb_false in Ha. auto. }
    assert (Hn2 : NoDup m2) by (apply NoDup_filter; exact Hn1).
    destruct m2 as [|u3 l3] eqn:E2; [cbn in *; lia|].
    pose proof (filter_square u3 (u3 :: l3) Hn2) as F3. set (m3 := filter (fun a => negb (feqb (a * a) (u3 * u3))) (u3 :: l3)) in *.
    assert (I3 : forall a, In a m3 -> In a (u3 :: l3) /\ a * a <> u3 * u3).
    { intros a Ha. apply filter_In in Ha as [Hin Ha]. apply negb_true_iff, feqb_false in Ha. auto. }
    destruct m3 as [|u4 l4] eqn:E3; [cbn in *; lia|].
    destruct (I1 u2 (or_introl eq_refl)) as [J2 D21].
    destruct (I2 u3 (or_introl eq_refl)) as [J3 D32]. destruct (I1 u3 J3) as [J3' D31].
    destruct (I3 u4 (or_introl eq_refl)) as [J4 D43]. destruct (I2 u4 J4) as [J4' D42]. destruct (I1 u4 J4') as [J4'' D41].
    rewrite Forall_forall in Hl.
    exists u1, u2, u3, u4. split.
    - repeat constructor; apply Hl; [left; reflexivity|exact J2|exact J3'|exact J4''].
    - cbn [map]. repeat constructor; cbn [In]; intuition congruence.
  Qed.
End Count.

(** ** Laurent polynomials in the challenge [u] *)
Section Laurent.
  Context {F : Field}.
  Add Field FFlau : (f_th F).

  (** degree at most one on one side; [c] is the constant coefficient *)
  Definition lau3 (hi : bool) (f : F -> F) (c : F) : Prop :=
    exists e, forall u, u <> 0 -> f u = c + (if hi then e * u else e * finv u).
  (** degrees from -2 to 2; [c] is the constant coefficient *)
  Definition lau5 (f : F -> F) (c : F) : Prop :=
    exists e0 e1 e3 e4, forall u, u <> 0 -> u * u * f u = peval [e0; e1; c; e3; e4] u.

  Lemma lau5_const c : lau5 (fun _ => c) c.
  Proof. exists 0, 0, 0, 0. intros u Hu. cbn [peval]. ring. Qed.
  Lemma lau5_add f g c d : lau5 f c -> lau5 g d -> lau5 (fun u => f u + g u) (c + d).
  Proof.
    intros (a0 & a1 & a3 & a4 & Ha) (b0 & b1 & b3 & b4 & Hb). exists (a0 + b0), (a1 + b1), (a3 + b3), (a4 + b4). intros u Hu.
    transitivity (u * u * f u + u * u * g u); [ring|]. rewrite Ha, Hb by exact Hu. cbn [peval]. ring.
  Qed.
  Lemma lau5_scale f c k : lau5 f c -> lau5 (fun u => k * f u) (k * c).
  Proof.
    intros (a0 & a1 & a3 & a4 & Ha). exists (k * a0), (k * a1), (k * a3), (k * a4). intros u Hu.
    transitivity (k * (u * u * f u)); [ring|]. rewrite Ha by exact Hu. cbn [peval]. ring.
  Qed.
  Lemma lau5_sub f g c d : lau5 f c -> lau5 g d -> lau5 (fun u => f u - g u) (c - d).
  Proof.
    intros (a0 & a1 & a3 & a4 & Ha) (b0 & b1 & b3 & b4 & Hb). exists (a0 - b0), (a1 - b1), (a3 - b3), (a4 - b4). intros u Hu.
    transitivity (u * u * f u - u * u * g u); [ring|]. rewrite Ha, Hb by exact Hu. cbn [peval]. ring.
  Qed.
  Lemma lau5_fsum n (f : nat -> F -> F) (c : nat -> F) : (forall i, (i < n)%nat -> lau5 (f i) (c i)) -> lau5 (fun u => fsum n (fun i => f i u)) (fsum n c).
  Proof.
    induction n as [|n IH]; intros H; cbn [fsum]; [apply lau5_const|]. apply lau5_add; [apply IH; intros; apply H; lia|apply H; lia].
  Qed.
  Lemma lau5_of_3 hi f c : lau3 hi f c -> lau5 f c.
  Proof.
    intros (e & He). destruct hi.
    - exists 0, 0, e, 0. intros u Hu. rewrite He by exact Hu. cbn [peval]. ring.
    - exists 0, e, 0, 0. intros u Hu. rewrite He by exact Hu. cbn [peval]. field. exact Hu.
  Qed.
  Lemma lau5_mul hi f g c d : lau3 hi f c -> lau3 hi g d -> lau5 (fun u => f u * g u) (c * d).
  Proof.
    intros (a & Ha) (b & Hb). destruct hi.
    - exists 0, 0, (a * d + b * c), (a * b). intros u Hu. rewrite Ha, Hb by exact Hu. cbn [peval]. ring.
    - exists (a * b), (a * d + b * c), 0, 0. intros u Hu. rewrite Ha, Hb by exact Hu. cbn [peval]. field. exact Hu.
  Qed.
  Lemma lau5_if (b : bool) f c : lau5 f c -> lau5 (fun u => if b then f u else 0) (if b then c else 0).
  Proof. destruct b; [auto|]. intros _. apply lau5_const. Qed.

  Lemma at_most_lau5 f c : lau5 f c -> c <> 0 -> at_most 5 (fun u => u = 0 \/ f u = 0).
  Proof.
    intros (e0 & e1 & e3 & e4 & He) Hc. apply at_most_or_eq.
    eapply at_most_weaken; [reflexivity| |apply (at_most_roots 4 [e0; e1; c; e3; e4]); cbn; lia].
    intros u [Hu Hf]. split.
    - do 2 apply Exists_cons_tl. apply Exists_cons_hd. exact Hc.
    - cbv beta. rewrite <- He by exact Hu. rewrite Hf. ring.
  Qed.
End Laurent.

(** ** Polynomials in the challenge [x], given by their coefficient functions *)
Section Conv.
  Context {F : Field}.
  Add Field FFconv : (f_th F).

  (* vocabulary of specifications and proofs, no code modelled *)
  Definition ind (d e : nat) (c : F) : F := if Nat.eqb e d then c else 0.
  Lemma fsum_ind D d (f : nat -> F) c : (d < D)%nat -> fsum D (fun e => ind d e c * f e) = c * f d.
  Proof.
    intros Hd. rewrite (fsum_single D _ d Hd).
    - unfold ind. rewrite Nat.eqb_refl. reflexivity.
    - intros i _ Hi. unfold ind. apply Nat.eqb_neq in Hi. rewrite Hi. ring.
  Qed.
  Lemma ind_same d c : ind d d c = c. Proof. unfold ind. rewrite Nat.eqb_refl. reflexivity. Qed.
  Lemma ind_diff d e c : e <> d -> ind d e c = 0. Proof. intros H. unfold ind. apply Nat.eqb_neq in H. rewrite H. reflexivity. Qed.

  Lemma conv D (a b : nat -> F) x : (forall e, (D <= e)%nat -> a e = 0 /\ b e = 0) ->
    fsum D (fun e => a e * fpow x e) * fsum D (fun e => b e * fpow x e) =
    fsum (2 * D) (fun d => fsum (S d) (fun e => a e * b (d - e)%nat) * fpow x d).
  Proof.
    intros H0.
    rewrite (fsum_ext (2 * D) _ (fun d => fsum (S d) (fun k => (fun k j => a k * b j * (fpow x k * fpow x j)) k (d - k)%nat))).
    2:{ intros d Hd. rewrite <- fsum_scale_r. apply fsum_ext. intros e He.
        replace (fpow x d) with (fpow x e * fpow x (d - e)) by (rewrite <- fpow_add; f_equal; lia). ring. }
    replace (2 * D)%nat with (D + D)%nat by lia.
    rewrite (cauchy_sum D D (fun k j => a k * b j * (fpow x k * fpow x j))).
    - rewrite <- fsum_scale_r. apply fsum_ext. intros k Hk. rewrite <- fsum_scale. apply fsum_ext. intros j Hj. ring.
    - intros k j Hkj. destruct Hkj as [Hk|Hj]; [rewrite (proj1 (H0 k Hk))|rewrite (proj2 (H0 j Hj))]; ring.
  Qed.

  (** The coefficient of degree [op] in the product of the left and the right
      polynomial of one gate, for arbitrary coefficients on both sides. *)
  Lemma op_coefficient (op mid m : nat) (ld rd : nat -> nat) (YI AL AR AO AOH SG SH yw wl wo : F) (VG VH wv : nat -> F) :
    (mid + mid = op)%nat -> (1 <= mid)%nat ->
    (forall j, (j < m)%nat -> (ld j + rd j = op)%nat /\ ~ In (ld j) [op + 1; op; mid]%nat /\ ~ In (rd j) [op + 1; 0; mid]%nat) ->
    (forall j k, (j < m)%nat -> (k < m)%nat -> rd j = rd k -> j = k) ->
    let l e := ind mid e (AL + yw) + ind op e AO + ind (op + 1) e SG + fsum m (fun j => ind (ld j) e (VG j)) in
    let r e := ind mid e (YI * AR + wl) + ind op e (YI * AOH) + ind (op + 1) e (YI * SH) + ind 0 e (wo - YI)
               + fsum m (fun j => ind (ld j) e (YI * VH j)) + fsum m (fun j => ind (rd j) e (wv j)) in
    fsum (S op) (fun e => l e * r (op - e)%nat) =
    (AL + yw) * (YI * AR + wl) + AO * (wo - YI) + fsum m (fun j => VG j * wv j)
    + YI * (fsum m (fun j => if Nat.eqb (ld j) 0 then VG j * AOH + AO * VH j else 0)
            + fsum m (fun j => fsum m (fun k => if Nat.eqb (ld j + ld k) op then VG j * VH k else 0))).
  Proof.
    intros Hm Hm1 Hs Hinj l r.
    transitivity ((AL + yw) * r mid + AO * r 0%nat + fsum m (fun j => VG j * r (rd j))).
    { unfold l.
      rewrite (fsum_ext (S op) _ (fun e => ind mid e (AL + yw) * r (op - e)%nat + ind op e AO * r (op - e)%nat + ind (op + 1) e SG * r (op - e)%nat
         + fsum m (fun j => ind (ld j) e (VG j) * r (op - e)%nat))).
      2:{ intros e He. rewrite fsum_scale_r. ring. }
      rewrite !fsum_add.
      rewrite (fsum_ind (S op) mid (fun e => r (op - e)%nat)), (fsum_ind (S op) op (fun e => r (op - e)%nat)) by lia.
      rewrite (fsum_zero (S op) (fun e => ind (op + 1) e SG * r (op - e)%nat)).
      2:{ intros e He. rewrite ind_diff by lia. ring. }
      rewrite fsum_swap. replace (op - mid)%nat with mid by lia. rewrite Nat.sub_diag.
      rewrite (fsum_ext m (fun j => fsum (S op) (fun i => ind (ld j) i (VG j) * r (op - i)%nat)) (fun j => VG j * r (rd j))).
      - ring.
      - intros j Hj. destruct (Hs j Hj) as (H1 & _). rewrite (fsum_ind (S op) (ld j) (fun e => r (op - e)%nat)) by lia.
        do 2 f_equal. lia. }
    assert (Rmid : r mid = YI * AR + wl).
    { unfold r. rewrite ind_same, !ind_diff by lia. rewrite !fsum_zero; [ring| |].
      - intros j Hj. destruct (Hs j Hj) as (_ & _ & H3). apply ind_diff. intros ->. apply H3. cbn; auto.
      - intros j Hj. destruct (Hs j Hj) as (_ & H2 & _). apply ind_diff. intros ->. apply H2. cbn; auto. }
    assert (R0 : r 0%nat = wo - YI + YI * fsum m (fun j => if Nat.eqb (ld j) 0 then VH j else 0)).
    { unfold r. rewrite ind_same, !ind_diff by lia. rewrite (fsum_zero m (fun j => ind (rd j) 0 (wv j))).
      - rewrite <- fsum_scale. rewrite (fsum_ext m (fun j => ind (ld j) 0 (YI * VH j)) (fun j => YI * (if Nat.eqb (ld j) 0 then VH j else 0))); [ring|].
        intros j Hj. unfold ind. rewrite Nat.eqb_sym. destruct (Nat.eqb (ld j) 0); ring.
      - intros j Hj. destruct (Hs j Hj) as (_ & _ & H3). apply ind_diff. intros H0. apply H3. cbn; auto. }
    assert (Rj : forall j, (j < m)%nat -> r (rd j) = wv j + YI * ((if Nat.eqb (ld j) 0 then AOH else 0) + fsum m (fun k => if Nat.eqb (ld j + ld k) op then VH k else 0))).
    { intros j Hj. destruct (Hs j Hj) as (H1 & H2 & H3). unfold r.
      rewrite (ind_diff mid) by (intros H; apply H3; cbn; auto). rewrite (ind_diff (op + 1)) by (intros H; apply H3; cbn; auto).
      rewrite (ind_diff 0) by (intros H; apply H3; cbn; auto).
      assert (E1 : fsum m (fun k => ind (rd k) (rd j) (wv k)) = wv j).
      { rewrite (fsum_single m _ j Hj); [apply ind_same|]. intros k Hk Hne. apply ind_diff. intros He. apply Hne. symmetry. apply Hinj; auto. }
      rewrite E1.
      assert (E2 : fsum m (fun k => ind (ld k) (rd j) (YI * VH k)) = YI * fsum m (fun k => if Nat.eqb (ld j + ld k) op then VH k else 0)).
      { rewrite <- fsum_scale. apply fsum_ext. intros k Hk. unfold ind. destruct (Hs k Hk) as (H1' & _).
        destruct (Nat.eqb_spec (rd j) (ld k)); destruct (Nat.eqb_spec (ld j + ld k) op); try lia; ring. }
      rewrite E2.
      assert (E3 : ind op (rd j) (YI * AOH) = YI * (if Nat.eqb (ld j) 0 then AOH else 0)).
      { unfold ind. destruct (Nat.eqb_spec (rd j) op); destruct (Nat.eqb_spec (ld j) 0); try lia; ring. }
      rewrite E3. ring. }
    rewrite Rmid, R0.
    rewrite (fsum_ext m (fun j => VG j * r (rd j)) (fun j => VG j * wv j + YI * ((if Nat.eqb (ld j) 0 then VG j * AOH else 0)
       + fsum m (fun k => if Nat.eqb (ld j + ld k) op then VG j * VH k else 0)))).
    2:{ intros j Hj. rewrite (Rj j Hj).
        rewrite (fsum_ext m (fun k => if Nat.eqb (ld j + ld k) op then VG j * VH k else 0) (fun k => VG j * (if Nat.eqb (ld j + ld k) op then VH k else 0)))
          by (intros k _; destruct (Nat.eqb (ld j + ld k) op); ring).
        rewrite fsum_scale. destruct (Nat.eqb (ld j) 0); ring. }
    rewrite fsum_add, fsum_scale, fsum_add.
    assert (E4 : fsum m (fun j => if Nat.eqb (ld j) 0 then VG j * AOH + AO * VH j else 0)
      = fsum m (fun j => if Nat.eqb (ld j) 0 then VG j * AOH else 0) + AO * fsum m (fun j => if Nat.eqb (ld j) 0 then VH j else 0)).
    { rewrite <- fsum_scale, <- fsum_add. apply fsum_ext. intros j _. destruct (Nat.eqb (ld j) 0); ring. }
    rewrite E4. ring.
  Qed.
End Conv.
