(** * Arithmetic of the window decomposition of rerandomize.rs *)
From Verif Require Export CurveGadgets.
From Verif Require Import UtilProofs.
From Coq Require Import Lia.

(** integers in a field *)
Definition fZ {F : Field} (z : Z) : F := match z with Z0 => f0 | Zpos p => fpos p | Zneg p => fopp (fpos p) end.

Section FZ.
  Context {S : PField}.
  Add Field FFz : (f_th S).
  Local Open Scope F_scope.
  Lemma fZ_of_N n : (fZ (Z.of_N n) : S) = fN n. Proof. destruct n; reflexivity. Qed.
  Lemma fZ_opp z : (fZ (- z) : S) = - fZ z. Proof. destruct z; cbn; ring. Qed.
  Lemma fZ_pos_sub p q : (fZ (Z.pos_sub p q) : S) = fpos p - fpos q.
  Proof.
    rewrite Z.pos_sub_spec. destruct (Pos.compare_spec p q) as [->|H|H].
    - cbn. ring.
    - pose proof (fN_add (F:=S) (Npos p) (Npos (q - p))) as E. replace (Npos p + Npos (q - p))%N with (Npos q) in E by lia. cbn in *. rewrite E. ring.
    - pose proof (fN_add (F:=S) (Npos q) (Npos (p - q))) as E. replace (Npos q + Npos (p - q))%N with (Npos p) in E by lia. cbn in *. rewrite E. ring.
  Qed.
  Lemma fZ_add a b : (fZ (a + b) : S) = fZ a + fZ b.
  Proof.
    destruct a as [|a|a], b as [|b|b]; cbn [Z.add fZ]; try ring.
    - exact (fN_add (F:=S) (Npos a) (Npos b)).
    - rewrite fZ_pos_sub. ring.
    - rewrite fZ_pos_sub. ring.
    - pose proof (fN_add (F:=S) (Npos a) (Npos b)) as E. cbn in E. rewrite E. ring.
  Qed.
  Lemma fZ_mul a b : (fZ (a * b) : S) = fZ a * fZ b.
  Proof.
    destruct a as [|a|a], b as [|b|b]; cbn [Z.mul fZ]; try ring; pose proof (fN_mul (F:=S) (Npos a) (Npos b)) as E; cbn in E; rewrite E; ring.
  Qed.
  Lemma fZ_sub a b : (fZ (a - b) : S) = fZ a - fZ b.
  Proof. unfold Z.sub. rewrite fZ_add, fZ_opp. ring. Qed.
  Lemma pf_mod_pos : (0 < pf_mod S)%N.
  Proof. pose proof (pf_repr_lt S 0). lia. Qed.
  Lemma fN_eq_0 n : (fN n : S) = 0 <-> (n mod pf_mod S = 0)%N.
  Proof.
    pose proof pf_mod_pos as Hq.
    assert (H0 : pf_repr (0 : S) = 0%N). { change (0 : S) with (fN 0 : S). rewrite pf_repr_of. apply N.mod_0_l. lia. }
    split; intros H.
    - rewrite <- pf_repr_of, H. exact H0.
    - rewrite <- (pf_repr_fN S (fN n)), pf_repr_of, H. reflexivity.
  Qed.
  Lemma fZ_eq_0 z : (fZ z : S) = 0 <-> (z mod Z.of_N (pf_mod S) = 0)%Z.
  Proof.
    pose proof pf_mod_pos as Hq.
    assert (HN : forall n, (fN n : S) = 0 <-> (Z.of_N n mod Z.of_N (pf_mod S) = 0)%Z).
    { intros n. rewrite fN_eq_0, <- N2Z.inj_mod by lia. lia. }
    destruct z as [|p|p]; [split; intros _; [apply Z.mod_0_l; lia|reflexivity]|apply (HN (Npos p))|].
    change (Zneg p) with (- Z.of_N (Npos p))%Z. rewrite fZ_opp, fZ_of_N. split; intros H.
    - apply Z_mod_zero_opp_full, HN, fopp_eq_0, H.
    - apply Z_mod_zero_opp_full in H. rewrite Z.opp_involutive in H. apply HN in H. rewrite H. ring.
  Qed.
  (** non-zero because strictly between two multiples of the modulus *)
  Lemma fZ_between z : (0 < z < Z.of_N (pf_mod S))%Z -> (fZ z : S) <> 0.
  Proof. intros H H0. apply fZ_eq_0 in H0. rewrite Z.mod_small in H0 by lia. lia. Qed.
  Lemma fZ_repr (r : S) : fZ (Z.of_N (pf_repr r)) = r.
  Proof. rewrite fZ_of_N. apply pf_repr_fN. Qed.
  Lemma two_pow_fZ k : (two_pow k : S) = fZ (2 ^ Z.of_nat k).
  Proof.
    unfold two_pow. induction k as [|k IH]; [reflexivity|]. cbn [fpow]. rewrite IH, Nat2Z.inj_succ, Z.pow_succ_r, fZ_mul by lia. reflexivity.
  Qed.
  Lemma two_pow_3 i : (two_pow (3 * i) : S) = fZ (8 ^ Z.of_nat i).
  Proof. rewrite two_pow_fZ. f_equal. rewrite Nat2Z.inj_mul. change 8%Z with (2 ^ 3)%Z. rewrite <- Z.pow_mul_r by lia. reflexivity. Qed.
End FZ.

Local Open Scope Z_scope.

(** The integers behind the table scalars (rerandomize.rs 24-38). *)
Fixpoint eights (n : nat) : Z := match n with O => 0 | S k => eights k + 8 ^ Z.of_nat (S k) end.
(* vocabulary of specifications and proofs, no code modelled *)
Definition right_int (m i : nat) : Z := if (i <? m)%nat then 8 ^ Z.of_nat i else - eights (m - 1).
(* vocabulary of specifications and proofs, no code modelled *)
Definition win_int (m i j : nat) : Z := Z.of_nat j * 8 ^ Z.of_nat (i - 1) + right_int m i.
(** sum of the integers of the first [n] windows for digits [d] *)
Fixpoint acc_int (m : nat) (d : nat -> nat) (n : nat) : Z :=
  match n with O => 0 | S k => acc_int m d k + win_int m (S k) (d (S k)) end.
(** the number with digits [d 1 .. d n] (least significant first) *)
Fixpoint digits_int (d : nat -> nat) (n : nat) : Z :=
  match n with O => 0 | S k => digits_int d k + Z.of_nat (d (S k)) * 8 ^ Z.of_nat k end.

Lemma acc_int_low m d n : (n < m)%nat -> acc_int m d n = digits_int d n + eights n.
Proof.
  induction n as [|n IH]; intros H; [reflexivity|]. cbn [acc_int digits_int eights]. rewrite IH by lia.
  unfold win_int, right_int. destruct (Nat.ltb_spec (S n) m); [|lia]. replace (S n - 1)%nat with n by lia. lia.
Qed.
Lemma acc_int_full m d : (1 <= m)%nat -> acc_int m d m = digits_int d m.
Proof.
  intros H. destruct m as [|m]; [lia|]. cbn [acc_int digits_int]. rewrite acc_int_low by lia. unfold win_int, right_int.
  destruct (Nat.ltb_spec (S m) (S m)); [lia|]. replace (S m - 1)%nat with m by lia. lia.
Qed.
Lemma eights_val n : 7 * eights n = 8 ^ Z.of_nat (S n) - 8.
Proof. induction n as [|n IH]; [reflexivity|]. cbn [eights]. rewrite (Nat2Z.inj_succ (S n)), (Z.pow_succ_r 8 (Z.of_nat (S n))) by lia. lia. Qed.
Lemma pow8_pos n : 0 < 8 ^ Z.of_nat n. Proof. apply Z.pow_pos_nonneg; lia. Qed.
Lemma pow8_S n : 8 ^ Z.of_nat (S n) = 8 * 8 ^ Z.of_nat n.
Proof. rewrite Nat2Z.inj_succ, Z.pow_succ_r by lia. reflexivity. Qed.
Lemma digits_bound d n : (forall k, (d k < 8)%nat) -> 0 <= digits_int d n < 8 ^ Z.of_nat n.
Proof.
  intros Hd. induction n as [|n IH]; [cbn; lia|]. cbn [digits_int]. rewrite pow8_S. specialize (Hd (S n)). pose proof (pow8_pos n). nia.
Qed.
Lemma acc_low_bounds m d n : (forall k, (d k < 8)%nat) -> (n < m)%nat ->
  eights n <= acc_int m d n /\ 7 * acc_int m d n < 15 * 8 ^ Z.of_nat n.
Proof.
  intros Hd Hn. rewrite acc_int_low by exact Hn. pose proof (digits_bound d n Hd) as Hb. pose proof (eights_val n) as He. rewrite pow8_S in He. lia.
Qed.
(** The difference of window and accumulator is positive and below 15 * 8^(i-1). *)
Lemma diff_bounds m d i : (forall k, (d k < 8)%nat) -> (2 <= i < m)%nat ->
  0 < win_int m i (d i) - acc_int m d (i - 1) < 15 * 8 ^ Z.of_nat (i - 1).
Proof.
  intros Hd [H2 Hm]. destruct (acc_low_bounds m d (i - 1) Hd) as [H1 H3]; [lia|].
  unfold win_int, right_int. destruct (Nat.ltb_spec i m); [|lia]. 
  assert (E8 : 8 ^ Z.of_nat i = 8 * 8 ^ Z.of_nat (i - 1)) by (rewrite <- pow8_S; f_equal; lia). rewrite E8.
  pose proof (pow8_pos (i - 1)) as Hp. pose proof (eights_val (i - 1)) as He. rewrite pow8_S in He.
  assert (8 ^ Z.of_nat (i - 1) > 1). { replace (i - 1)%nat with (S (i - 2)) by lia. rewrite pow8_S. pose proof (pow8_pos (i - 2)). lia. }
  specialize (Hd i). nia.
Qed.
Lemma sum_bounds m d i : (forall k, (d k < 8)%nat) -> (2 <= i < m)%nat ->
  0 < acc_int m d (i - 1) + win_int m i (d i) /\ 7 * (acc_int m d (i - 1) + win_int m i (d i)) < 120 * 8 ^ Z.of_nat (i - 1).
Proof.
  intros Hd [H2 Hm]. destruct (acc_low_bounds m d (i - 1) Hd) as [H1 H3]; [lia|].
  unfold win_int, right_int. destruct (Nat.ltb_spec i m); [|lia]. 
  assert (E8 : 8 ^ Z.of_nat i = 8 * 8 ^ Z.of_nat (i - 1)) by (rewrite <- pow8_S; f_equal; lia). rewrite E8.
  pose proof (pow8_pos (i - 1)) as Hp. pose proof (eights_val (i - 1)) as He. rewrite pow8_S in He.
  specialize (Hd i). nia.
Qed.

(** ** digits of a number *)
Lemma N_mod8 (x : N) : (N.b2n (N.testbit x 0) + 2 * N.b2n (N.testbit x 1) + 4 * N.b2n (N.testbit x 2) = x mod 8)%N.
Proof.
  pose proof (N.div2_odd x) as H0. pose proof (N.div2_odd (N.div2 x)) as H1. pose proof (N.div2_odd (N.div2 (N.div2 x))) as H2.
  rewrite <- N.bit0_odd in H0, H1, H2.
  assert (T1 : N.testbit x 1 = N.testbit (N.div2 x) 0) by (rewrite N.div2_spec, N.shiftr_spec by lia; reflexivity).
  assert (T2 : N.testbit x 2 = N.testbit (N.div2 (N.div2 x)) 0) by (rewrite !N.div2_spec, !N.shiftr_spec by lia; reflexivity).
  rewrite T1, T2. set (b0 := N.testbit x 0) in *. set (b1 := N.testbit (N.div2 x) 0) in *. set (b2 := N.testbit (N.div2 (N.div2 x)) 0) in *.
  apply (N.mod_unique x 8 (N.div2 (N.div2 (N.div2 x)))); [destruct b0, b1, b2; cbn; lia|]. lia.
Qed.
Lemma testbit_above r k lambda : (r < 2 ^ N.of_nat lambda)%N -> (lambda <= k)%nat -> N.testbit r (N.of_nat k) = false.
Proof.
  intros Hr Hk. destruct (N.eq_dec r 0) as [->|H0]; [apply N.bits_0|]. apply N.bits_above_log2.
  apply N.log2_lt_pow2; [lia|]. eapply N.lt_le_trans; [exact Hr|]. apply N.pow_le_mono_r; lia.
Qed.
Lemma window_index_mod lambda r i : (r < 2 ^ N.of_nat lambda)%N ->
  N.of_nat (window_index lambda r i) = (N.shiftr r (N.of_nat (3 * (i - 1))) mod 8)%N.
Proof.
  intros Hr. rewrite <- N_mod8, !N.shiftr_spec by lia. unfold window_index.
  assert (Hb : forall k, ((k <? lambda)%nat && N.testbit r (N.of_nat k))%bool = N.testbit r (N.of_nat k)).
  { intros k. destruct (Nat.ltb_spec k lambda); [reflexivity|]. rewrite (testbit_above r k lambda) by assumption. reflexivity. }
  rewrite !Hb. replace (0 + N.of_nat (3 * (i - 1)))%N with (N.of_nat ((i - 1) * 3)) by lia.
  replace (1 + N.of_nat (3 * (i - 1)))%N with (N.of_nat ((i - 1) * 3 + 1)) by lia.
  replace (2 + N.of_nat (3 * (i - 1)))%N with (N.of_nat ((i - 1) * 3 + 2)) by lia.
  destruct (N.testbit r (N.of_nat ((i - 1) * 3))), (N.testbit r (N.of_nat ((i - 1) * 3 + 1))), (N.testbit r (N.of_nat ((i - 1) * 3 + 2))); reflexivity.
Qed.
Lemma window_index_lt lambda r i : (window_index lambda r i < 8)%nat.
Proof. unfold window_index. repeat match goal with |- context [if ?b then _ else _] => destruct b end; lia. Qed.
Lemma digits_of_number lambda r n : (r < 2 ^ N.of_nat lambda)%N ->
  digits_int (window_index lambda r) n = Z.of_N (r mod 8 ^ N.of_nat n).
Proof.
  intros Hr. induction n as [|n IH]; [cbn; rewrite N.mod_1_r; reflexivity|]. cbn [digits_int]. rewrite IH.
  pose proof (window_index_mod lambda r (S n) Hr) as Hw. replace (S n - 1)%nat with n in Hw by lia.
  rewrite <- nat_N_Z, Hw, N.shiftr_div_pow2.
  replace (2 ^ N.of_nat (3 * n))%N with (8 ^ N.of_nat n)%N by (rewrite Nat2N.inj_mul; change 8%N with (2 ^ 3)%N; rewrite <- N.pow_mul_r; reflexivity).
  replace (8 ^ Z.of_nat n) with (Z.of_N (8 ^ N.of_nat n)) by (rewrite N2Z.inj_pow, nat_N_Z; reflexivity).
  rewrite <- N2Z.inj_mul, <- N2Z.inj_add. f_equal.
  rewrite Nat2N.inj_succ, N.pow_succ_r'. assert (H8 : (8 ^ N.of_nat n <> 0)%N) by (apply N.pow_nonzero; lia).
  rewrite (N.mul_comm 8), N.mod_mul_r by (try exact H8; lia). lia.
Qed.
Lemma size_lt (q : N) : (q < 2 ^ N.of_nat (N.to_nat (N.size q)))%N.
Proof. rewrite N2Nat.id. apply N.size_gt. Qed.
Lemma digits_full (S : PField) (r : N) : (r < pf_mod S)%N ->
  digits_int (window_index (modulus_bits S) r) (modulus_bits S / 3 + 1) = Z.of_N r.
Proof.
  intros Hr. set (lam := modulus_bits S). assert (Hl : (r < 2 ^ N.of_nat lam)%N) by (eapply N.lt_trans; [exact Hr|apply size_lt]).
  rewrite digits_of_number by exact Hl. f_equal. apply N.mod_small. eapply N.lt_le_trans; [exact Hl|].
  change 8%N with (2 ^ 3)%N. rewrite <- N.pow_mul_r. apply N.pow_le_mono_r; [lia|].
  pose proof (Nat.div_mod lam 3). pose proof (Nat.mod_upper_bound lam 3). lia.
Qed.
