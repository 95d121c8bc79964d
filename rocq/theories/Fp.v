(** * Concrete prime fields (for witnesses and examples)

    [Fp p] is the field of integers modulo a prime [p]; elements are canonical
    representatives, so equality is Leibniz equality without any axiom.  This is
    the model's counterpart of the [ark_ff] prime fields used in the tests; it
    is only used to instantiate the [Field] interface. *)

From Verif Require Import Field.
From Coq Require Import Znumtheory Eqdep_dec.
Local Open Scope Z_scope.

(* test data, no code modelled *)
Definition in_range (p z : Z) : bool := (0 <=? z) && (z <? p).

(* test data, no code modelled *)
Record PrimeMod := mkPM { pm :> Z; pm_prime : prime pm }.

Section Fp.
  Variable p : PrimeMod.

  (* test data, no code modelled *)
  Definition Fp : Type := { z : Z | in_range p z = true }.
  (* test data, no code modelled *)
  Definition zv (x : Fp) : Z := proj1_sig x.

  Lemma p_pos : 1 < p. Proof. destruct (pm_prime p). assumption. Qed.

  Lemma zero_in_range : in_range p 0 = true.
  Proof. unfold in_range. pose proof p_pos. lia. Qed.

  (* test data, no code modelled *)
  Definition fp_mk (z : Z) : Fp :=
    (if in_range p (z mod p) as b return in_range p (z mod p) = b -> Fp
     then fun H => exist _ (z mod p) H
     else fun _ => exist _ 0 zero_in_range) eq_refl.

  Lemma mod_in_range z : in_range p (z mod p) = true.
  Proof. unfold in_range. pose proof p_pos. pose proof (Z.mod_pos_bound z p). lia. Qed.

  Lemma zv_mk z : zv (fp_mk z) = z mod p.
  Proof.
    unfold fp_mk.
    generalize (eq_refl (in_range p (z mod p))).
    generalize (in_range p (z mod p)) at 2 3.
    intros [|] H; [reflexivity|]. rewrite mod_in_range in H. discriminate.
  Qed.

  Lemma fp_eq (x y : Fp) : zv x = zv y -> x = y.
  Proof.
    destruct x as [x Hx], y as [y Hy]. unfold zv. cbn [proj1_sig]. intros ->.
    f_equal. apply UIP_dec, bool_dec.
  Qed.

  Lemma zv_range (x : Fp) : 0 <= zv x < p.
  Proof. destruct x as [x Hx]. unfold zv, in_range in *. cbn [proj1_sig]. lia. Qed.

  Lemma zv_mod (x : Fp) : zv x mod p = zv x.
  Proof. apply Z.mod_small, zv_range. Qed.

  Lemma fp_mk_zv (x : Fp) : fp_mk (zv x) = x.
  Proof. apply fp_eq. rewrite zv_mk. apply zv_mod. Qed.

  (** Extended Euclid on fuel; the result is checked, with a linear search as
      fallback, so correctness does not depend on the fuel. *)
  Fixpoint egcd (fuel : nat) (r0 r1 s0 s1 : Z) : Z :=
    match fuel with
    | O => s0
    | S k => if r1 =? 0 then s0
             else let q := r0 / r1 in egcd k r1 (r0 - q * r1) s1 (s0 - q * s1)
    end.

  (* test data, no code modelled *)
  Fixpoint inv_search (n : nat) (x : Z) : Z :=
    match n with
    | O => 0
    | S k => if (x * Z.of_nat (S k)) mod p =? 1 then Z.of_nat (S k) else inv_search k x
    end.

  (* test data, no code modelled *)
  Definition zinv (x : Z) : Z :=
    let y := egcd 600 x p 1 0 mod p in
    if (x * y) mod p =? 1 then y else inv_search (Z.to_nat p) x.

  Lemma inv_search_spec n x y :
    0 <= y <= Z.of_nat n -> (x * y) mod p = 1 -> (x * inv_search n x) mod p = 1.
  Proof.
    induction n as [|n IH]; intros Hy H.
    - replace y with 0 in H by lia. exact H.
    - cbn [inv_search]. destruct (Z.eqb_spec ((x * Z.of_nat (S n)) mod p) 1); [assumption|].
      apply IH; [|assumption].
      destruct (Z.eq_dec y (Z.of_nat (S n))); [subst; contradiction|lia].
  Qed.

  Lemma zinv_spec x : 0 < x < p -> (x * zinv x) mod p = 1.
  Proof.
    intros Hx. unfold zinv.
    destruct (Z.eqb_spec ((x * (egcd 600 x p 1 0 mod p)) mod p) 1); [assumption|].
    assert (Hrp : rel_prime x p).
    { apply rel_prime_sym, prime_rel_prime; [apply pm_prime|].
      intros Hd. apply Z.divide_pos_le in Hd; lia. }
    destruct (rel_prime_bezout _ _ Hrp) as [u v Huv].
    pose proof p_pos as Hp.
    apply inv_search_spec with (y := u mod p).
    - pose proof (Z.mod_pos_bound u p). lia.
    - rewrite Z.mul_mod_idemp_r by lia.
      replace (x * u) with (1 + (- v) * p) by lia.
      rewrite Z.mod_add by lia. apply Z.mod_small. lia.
  Qed.

  (* test data, no code modelled *)
  Definition fp_add x y := fp_mk (zv x + zv y).
  (* test data, no code modelled *)
  Definition fp_mul x y := fp_mk (zv x * zv y).
  (* test data, no code modelled *)
  Definition fp_sub x y := fp_mk (zv x - zv y).
  (* test data, no code modelled *)
  Definition fp_opp x := fp_mk (- zv x).
  (* test data, no code modelled *)
  Definition fp_inv x := fp_mk (zinv (zv x)).
  (* test data, no code modelled *)
  Definition fp_div x y := fp_mul x (fp_inv y).
  (* test data, no code modelled *)
  Definition fp_eqb x y := zv x =? zv y.

  Lemma fp_th : field_theory (fp_mk 0) (fp_mk 1) fp_add fp_mul fp_sub fp_opp fp_div fp_inv eq.
  Proof.
    pose proof p_pos as Hp.
    constructor; [constructor| | |].
    all: intros; try reflexivity; try apply fp_eq;
      unfold fp_add, fp_mul, fp_sub, fp_opp, fp_inv; rewrite ?zv_mk.
    all: rewrite ?Z.add_mod_idemp_l, ?Z.add_mod_idemp_r, ?Z.mul_mod_idemp_l, ?Z.mul_mod_idemp_r by lia.
    all: try (rewrite ?Z.add_0_l; apply zv_mod).
    all: try (f_equal; lia).
    - rewrite Z.mul_1_l. apply zv_mod.
    - intros H. apply (f_equal zv) in H. rewrite !zv_mk in H.
      rewrite !Z.mod_small in H by lia. discriminate.
    - rewrite Z.mul_comm, zinv_spec; [symmetry; apply Z.mod_small; lia|].
      match goal with H : ?x <> fp_mk 0 |- _ => pose proof (zv_range x) as Hr;
        assert (zv x <> 0) by (intros E; apply H, fp_eq; rewrite zv_mk, E; symmetry; apply Z.mod_small; lia) end.
      lia.
  Qed.

  Lemma fp_eqb_spec x y : reflect (x = y) (fp_eqb x y).
  Proof.
    unfold fp_eqb. destruct (Z.eqb_spec (zv x) (zv y)); constructor.
    - apply fp_eq. assumption.
    - congruence.
  Qed.

  (* test data, no code modelled *)
  Definition FpField : Field :=
    mkField Fp (fp_mk 0) (fp_mk 1) fp_add fp_mul fp_sub fp_opp fp_div fp_inv fp_eqb fp_th fp_eqb_spec.

  (** All elements, for exhaustive checks. *)
  Definition fp_all : list FpField := map (fun k => fp_mk (Z.of_nat k)) (seq 0 (Z.to_nat p)).
  Lemma fp_all_spec (x : FpField) : In x fp_all.
  Proof.
    unfold fp_all. apply in_map_iff. exists (Z.to_nat (zv x)).
    pose proof (zv_range x). split.
    - rewrite Z2Nat.id by lia. apply fp_mk_zv.
    - apply in_seq. lia.
  Qed.
End Fp.

Arguments fp_mk {p} _.
Arguments zv {p} _.

(** Primality of small numbers by trial division. *)
Definition is_prime (p : Z) : bool :=
  (1 <? p) && forallb (fun d => negb (p mod (Z.of_nat d + 2) =? 0)) (seq 0 (Z.to_nat p - 2)).

Lemma is_prime_spec p : is_prime p = true -> prime p.
Proof.
  unfold is_prime. intros H. apply andb_true_iff in H as [H1 H2].
  apply prime_alt. split; [lia|]. intros n Hn Hd.
  rewrite forallb_forall in H2.
  specialize (H2 (Z.to_nat (n - 2))).
  assert (Hin : In (Z.to_nat (n - 2)) (seq 0 (Z.to_nat p - 2))) by (apply in_seq; lia).
  specialize (H2 Hin). rewrite Z2Nat.id in H2 by lia.
  replace (n - 2 + 2) with n in H2 by lia.
  apply Z.mod_divide in Hd; [|lia]. rewrite Hd in H2. discriminate.
Qed.

(* test data, no code modelled *)
Definition PM7 : PrimeMod := mkPM 7 (is_prime_spec 7 eq_refl).
(* test data, no code modelled *)
Definition PM13 : PrimeMod := mkPM 13 (is_prime_spec 13 eq_refl).
(* test data, no code modelled *)
Definition PM31 : PrimeMod := mkPM 31 (is_prime_spec 31 eq_refl).
(* test data, no code modelled *)
Definition PM43 : PrimeMod := mkPM 43 (is_prime_spec 43 eq_refl).
(* test data, no code modelled *)
Definition PM79 : PrimeMod := mkPM 79 (is_prime_spec 79 eq_refl).
(* test data, no code modelled *)
Definition PM97 : PrimeMod := mkPM 97 (is_prime_spec 97 eq_refl).
(* test data, no code modelled *)
Definition PM101 : PrimeMod := mkPM 101 (is_prime_spec 101 eq_refl).

(* test data, no code modelled *)
Definition F7 := FpField PM7.
(* test data, no code modelled *)
Definition F13 := FpField PM13.
(* test data, no code modelled *)
Definition F31 := FpField PM31.
(* test data, no code modelled *)
Definition F43 := FpField PM43.
(* test data, no code modelled *)
Definition F79 := FpField PM79.
(* test data, no code modelled *)
Definition F97 := FpField PM97.
(* test data, no code modelled *)
Definition F101 := FpField PM101.
