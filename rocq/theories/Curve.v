(** * Short Weierstrass curves, as assumed of [ark_ec]

    Interfaces through which the model sees the prime fields with their integer
    representation and the curves.  Records, so nothing is assumed globally;
    instances are built in [ToyCurve.v]. *)
From Verif Require Export CS.
From Verif Require Import UtilProofs.
Local Open Scope F_scope.

(** [ark_ff::PrimeField]: modulus and canonical integer representation
    ([into_bigint]); [fN] is [From<u64>]/[from_bigint] reduced. *)
Record PField : Type := mkPField {
  pf :> Field;
  pf_mod : N;
  pf_repr : pf -> N;
  pf_repr_lt : forall x, (pf_repr x < pf_mod)%N;
  pf_repr_fN : forall x, fN (pf_repr x) = x;
  pf_repr_of : forall n, pf_repr (fN n) = (n mod pf_mod)%N }.
Arguments pf_repr {p}.

(** [PrimeField::MODULUS_BIT_SIZE] *)
Definition modulus_bits (S : PField) : nat := N.to_nat (N.size (pf_mod S)).

(** [ark_ec::short_weierstrass::Affine<P>] for a curve y^2 = x^3 + a x + b whose
    group of points is a module over the scalar field (prime order, cofactor 1,
    as for pallas, vesta, secp256k1 and secq256k1).  [coords] is [None] for the
    point at infinity ([x()], [y()]); [of_coords] is [Affine::new], which panics
    ([None]) off the curve.  The group law is specified by the chord rule for
    points of different x; the negation rule; nothing is said about doubling. *)
Record SWCurve (Fb Fs : Field) : Type := mkSW {
  sw_v :> VSpace Fs;
  sw_a : Fb;
  sw_b : Fb;
  coords : sw_v -> option (Fb * Fb);
  of_coords : Fb -> Fb -> option sw_v;
  coords_0 : forall P, coords P = None <-> P = v0;
  of_coords_spec : forall x y P, of_coords x y = Some P <-> coords P = Some (x, y);
  coords_on : forall P x y, coords P = Some (x, y) -> y * y = x * x * x + sw_a * x + sw_b;
  coords_ex : forall x y, y * y = x * x * x + sw_a * x + sw_b -> exists P, coords P = Some (x, y);
  coords_neg : forall P x y, coords P = Some (x, y) -> coords (vopp P) = Some (x, - y);
  coords_add : forall P Q x1 y1 x2 y2, coords P = Some (x1, y1) -> coords Q = Some (x2, y2) -> x1 <> x2 ->
    let l := (y2 - y1) / (x2 - x1) in
    let x3 := l * l - x1 - x2 in
    coords (vadd P Q) = Some (x3, l * (x1 - x3) - y1) }.
Arguments sw_v {Fb Fs} _.
Arguments sw_a {Fb Fs} _.
Arguments sw_b {Fb Fs} _.
Arguments coords {Fb Fs _} _.
Arguments of_coords {Fb Fs _} _ _.

Section CurveLemmas.
  Context {Fb Fs : Field} {C : SWCurve Fb Fs}.
  Add Field FFcb : (f_th Fb).

  Lemma coords_inj (P Q : C) xy : coords P = Some xy -> coords Q = Some xy -> P = Q.
  Proof.
    destruct xy as [x y]. intros HP HQ. apply (of_coords_spec Fb Fs C) in HP. apply (of_coords_spec Fb Fs C) in HQ. congruence.
  Qed.
  Lemma coords_v0 : coords (v0 : C) = None.
  Proof. apply coords_0. reflexivity. Qed.
  Lemma coords_some (P : C) : P <> v0 -> exists x y, coords P = Some (x, y).
  Proof. intros H. destruct (coords P) as [[x y]|] eqn:E; [eauto|]. apply coords_0 in E. contradiction. Qed.
  Lemma coords_neq_0 (P : C) xy : coords P = Some xy -> P <> v0.
  Proof. intros H ->. rewrite coords_v0 in H. discriminate. Qed.
  Lemma same_x (P Q : C) x y1 y2 : coords P = Some (x, y1) -> coords Q = Some (x, y2) -> Q = P \/ Q = vopp P.
  Proof.
    intros HP HQ. pose proof (coords_on _ _ _ _ _ _ HP) as E1. pose proof (coords_on _ _ _ _ _ _ HQ) as E2.
    destruct (fsqr_eq y2 y1) as [->| ->]; [congruence| |].
    - left. eapply coords_inj; eassumption.
    - right. eapply coords_inj; [eassumption|]. apply coords_neg. exact HP.
  Qed.
  Lemma diff_x (P Q : C) x1 y1 x2 y2 : coords P = Some (x1, y1) -> coords Q = Some (x2, y2) -> Q <> P -> Q <> vopp P -> x1 <> x2.
  Proof. intros HP HQ H1 H2 ->. destruct (same_x _ _ _ _ _ HP HQ); contradiction. Qed.
  Lemma x_eq_iff (P Q : C) x1 y1 x2 y2 : coords P = Some (x1, y1) -> coords Q = Some (x2, y2) -> (x1 = x2 <-> Q = P \/ Q = vopp P).
  Proof.
    intros HP HQ. split; [intros ->; eapply same_x; eassumption|]. intros [->| ->]; [congruence|]. rewrite (coords_neg _ _ _ _ _ _ HP) in HQ. congruence.
  Qed.

  (** The equations of the addition gadget say exactly that the output is the sum. *)
  Lemma chord_sum (P Q : C) xl yl xr yr xo yo d : coords P = Some (xl, yl) -> coords Q = Some (xr, yr) -> xl <> xr ->
    d * (xr - xl) = yr - yl -> d * (xo - xl) = - yo - yl -> d * d = xo + xr + xl -> coords (vadd P Q) = Some (xo, yo).
  Proof.
    intros HP HQ Hx E1 E2 E3. pose proof (coords_add _ _ _ _ _ _ _ _ _ HP HQ Hx) as Hs. cbv zeta in Hs. rewrite Hs.
    assert (Hd : (yr - yl) / (xr - xl) = d) by (rewrite <- E1; field; apply fsub_neq_0; congruence). rewrite Hd.
    assert (Hxo : d * d - xl - xr = xo) by (rewrite E3; ring). rewrite Hxo. f_equal. f_equal.
    transitivity (- (d * (xo - xl)) - yl); [ring|]. rewrite E2. ring.
  Qed.
  Lemma chord_eqs (P Q : C) xl yl xr yr xo yo : coords P = Some (xl, yl) -> coords Q = Some (xr, yr) -> xl <> xr ->
    coords (vadd P Q) = Some (xo, yo) ->
    let d := (yr - yl) * finv (xr - xl) in d * (xr - xl) = yr - yl /\ d * (xo - xl) = - yo - yl /\ d * d = xo + xr + xl.
  Proof.
    intros HP HQ Hx Ho d. pose proof (coords_add _ _ _ _ _ _ _ _ _ HP HQ Hx) as Hs. cbv zeta in Hs. rewrite Ho in Hs. 
    assert (Hn : xr - xl <> 0) by (apply fsub_neq_0; congruence).
    assert (Hd : (yr - yl) / (xr - xl) = d) by (unfold d; field; exact Hn). rewrite Hd in Hs.
    assert (Hxo : xo = d * d - xl - xr) by congruence. assert (Hyo : yo = d * (xl - (d * d - xl - xr)) - yl) by congruence.
    split; [unfold d; field; exact Hn|]. split; [rewrite Hyo, Hxo; ring|rewrite Hxo; ring].
  Qed.
End CurveLemmas.
