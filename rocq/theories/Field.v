(** * Fields, as assumed of [ark_ff::PrimeField]

    Interface through which the model sees the scalar and base fields that the
    Rust code takes as type parameters ([C::ScalarField], [F: Field]).  It is a
    record, so nothing is assumed globally; concrete prime fields are built in
    [Fp.v]. *)

From Coq Require Export List Arith ZArith NArith Lia Bool Setoid.
From Coq Require Export Field_theory Ring_theory Ring Field.
Export ListNotations.

(** what is assumed of [ark_ff::Field] *)
Record Field : Type := mkField {
  fcar :> Type;
  f0 : fcar;
  f1 : fcar;
  fadd : fcar -> fcar -> fcar;
  fmul : fcar -> fcar -> fcar;
  fsub : fcar -> fcar -> fcar;
  fopp : fcar -> fcar;
  fdiv : fcar -> fcar -> fcar;
  finv : fcar -> fcar;
  feqb : fcar -> fcar -> bool;
  f_th : field_theory f0 f1 fadd fmul fsub fopp fdiv finv (@eq fcar);
  feqb_spec : forall x y, reflect (x = y) (feqb x y)
}.

Arguments f0 {_}.
Arguments f1 {_}.
Arguments fadd {_} _ _.
Arguments fmul {_} _ _.
Arguments fsub {_} _ _.
Arguments fopp {_} _.
Arguments fdiv {_} _ _.
Arguments finv {_} _.
Arguments feqb {_} _ _.

Declare Scope F_scope.
Delimit Scope F_scope with F.
Bind Scope F_scope with fcar.
Notation "0" := f0 : F_scope.
Notation "1" := f1 : F_scope.
Notation "x + y" := (fadd x y) : F_scope.
Notation "x * y" := (fmul x y) : F_scope.
Notation "x - y" := (fsub x y) : F_scope.
Notation "- x" := (fopp x) : F_scope.
Notation "x / y" := (fdiv x y) : F_scope.
Notation "x =? y" := (feqb x y) : F_scope.

(** [Field::inverse] of ark_ff: [None] on zero. *)
Definition finv_opt {F : Field} (x : F) : option F :=
  if feqb x f0 then None else Some (finv x).

(** [Field::pow] with a small exponent. *)
Fixpoint fpow {F : Field} (x : F) (n : nat) : F :=
  match n with O => f1 | S k => fmul x (fpow x k) end.

(** Image of a natural number ([F::from(n)] in ark_ff). *)
Fixpoint fnat {F : Field} (n : nat) : F :=
  match n with O => f0 | S k => fadd f1 (fnat k) end.

(** Image of a positive / binary natural, as [F::from(u64)]. *)
Fixpoint fpos {F : Field} (p : positive) : F :=
  match p with
  | xH => f1
  | xO q => fadd (fpos q) (fpos q)
  | xI q => fadd f1 (fadd (fpos q) (fpos q))
  end.
(** [F::from(u64)] (ark_ff) *)
Definition fN {F : Field} (n : N) : F :=
  match n with N0 => f0 | Npos p => fpos p end.

Section FieldLemmas.
  Context {F : Field}.
  Add Field FF : (f_th F).
  Implicit Types x y z : F.
  Local Open Scope F_scope.

  Lemma feqb_true x y : feqb x y = true <-> x = y.
  Proof. destruct (feqb_spec F x y); split; congruence. Qed.
  Lemma feqb_false x y : feqb x y = false <-> x <> y.
  Proof. destruct (feqb_spec F x y); split; congruence. Qed.
  Lemma feqb_refl x : feqb x x = true.
  Proof. apply feqb_true; reflexivity. Qed.
  Lemma f_eq_dec x y : {x = y} + {x <> y}.
  Proof. destruct (feqb_spec F x y); [left|right]; assumption. Qed.

  Lemma f1_neq_0 : (1 : F) <> 0.
  Proof. exact (F_1_neq_0 (f_th F)). Qed.

  Lemma finv_l x : x <> 0 -> finv x * x = 1.
  Proof. exact (Finv_l (f_th F) x). Qed.
  Lemma finv_r x : x <> 0 -> x * finv x = 1.
  Proof. intros. field. assumption. Qed.

  Lemma fmul_0_l x : 0 * x = 0. Proof. ring. Qed.
  Lemma fmul_0_r x : x * 0 = 0. Proof. ring. Qed.
  Lemma fmul_1_l x : 1 * x = x. Proof. ring. Qed.
  Lemma fmul_1_r x : x * 1 = x. Proof. ring. Qed.
  Lemma fadd_0_l x : 0 + x = x. Proof. ring. Qed.
  Lemma fadd_0_r x : x + 0 = x. Proof. ring. Qed.
  Lemma fadd_comm x y : x + y = y + x. Proof. ring. Qed.
  Lemma fadd_assoc x y z : x + (y + z) = x + y + z. Proof. ring. Qed.
  Lemma fmul_comm x y : x * y = y * x. Proof. ring. Qed.
  Lemma fmul_assoc x y z : x * (y * z) = x * y * z. Proof. ring. Qed.
  Lemma fsub_0_iff x y : x - y = 0 <-> x = y.
  Proof. split; intros H; [|subst; ring].
    replace x with ((x - y) + y) by ring. rewrite H. ring. Qed.

  Lemma fmul_eq_0 x y : x * y = 0 -> x = 0 \/ y = 0.
  Proof.
    intros H. destruct (f_eq_dec x 0) as [|Hx]; [left; assumption|right].
    replace y with (finv x * (x * y)).
    - rewrite H. ring.
    - rewrite fmul_assoc, finv_l by assumption. ring.
  Qed.
  Lemma fmul_neq_0 x y : x <> 0 -> y <> 0 -> x * y <> 0.
  Proof. intros Hx Hy H. destruct (fmul_eq_0 _ _ H); contradiction. Qed.
  Lemma finv_neq_0 x : x <> 0 -> finv x <> 0.
  Proof.
    intros Hx H. pose proof (finv_l x Hx) as H1. rewrite H, fmul_0_l in H1.
    symmetry in H1. exact (f1_neq_0 H1).
  Qed.
  Lemma fmul_cancel_l x y z : x <> 0 -> x * y = x * z -> y = z.
  Proof.
    intros Hx H. apply fsub_0_iff.
    destruct (fmul_eq_0 x (y - z)) as [?|?]; [|contradiction|assumption].
    transitivity (x * y - x * z); [ring|]. rewrite H. ring.
  Qed.
  Lemma fopp_eq_0 x : - x = 0 -> x = 0.
  Proof. intros H. replace x with (- - x) by ring. rewrite H. ring. Qed.
  Lemma fopp_neq_0 x : x <> 0 -> - x <> 0.
  Proof. intros H H1. apply H, fopp_eq_0, H1. Qed.
  Lemma fsub_neq_0 x y : x <> y -> x - y <> 0.
  Proof. intros H H1. apply H, fsub_0_iff, H1. Qed.
  Lemma fsqr_eq x y : x * x = y * y -> x = y \/ x = - y.
  Proof.
    intros H. destruct (fmul_eq_0 (x - y) (x + y)) as [H1|H1].
    - transitivity (x * x - y * y); [ring|]. rewrite H. ring.
    - left. apply fsub_0_iff, H1.
    - right. replace x with ((x + y) - y) by ring. rewrite H1. ring.
  Qed.
  Lemma finv_unique x y : x * y = 1 -> y = finv x.
  Proof.
    intros H. assert (Hx : x <> 0).
    { intros ->. rewrite fmul_0_l in H. symmetry in H. exact (f1_neq_0 H). }
    apply (fmul_cancel_l x); [assumption|]. rewrite H, finv_r; auto.
  Qed.
  Lemma finv_mul x y : x <> 0 -> y <> 0 -> finv (x * y) = finv x * finv y.
  Proof. intros. symmetry. apply finv_unique. field. auto. Qed.
  Lemma finv_inv x : x <> 0 -> finv (finv x) = x.
  Proof. intros. symmetry. apply finv_unique, finv_l. assumption. Qed.
  Lemma finv_1 : finv (1 : F) = 1.
  Proof. symmetry. apply finv_unique. ring. Qed.

  Lemma finv_opt_Some x y : finv_opt x = Some y <-> x <> 0 /\ y = finv x.
  Proof.
    unfold finv_opt. destruct (feqb_spec F x 0); split; intros H; try discriminate.
    - destruct H; contradiction.
    - injection H as <-. auto.
    - destruct H as [_ ->]. reflexivity.
  Qed.
  Lemma finv_opt_None x : finv_opt x = None <-> x = 0.
  Proof. unfold finv_opt. destruct (feqb_spec F x 0); split; congruence. Qed.

  Lemma fpow_add x n m : fpow x (n + m) = fpow x n * fpow x m.
  Proof. induction n as [|n IH]; cbn [fpow Nat.add]; [ring|]. rewrite IH. ring. Qed.
  Lemma fpow_S_r x n : fpow x (S n) = fpow x n * x.
  Proof. cbn [fpow]. ring. Qed.
  Lemma fpow_mul_l x y n : fpow (x * y) n = fpow x n * fpow y n.
  Proof. induction n as [|n IH]; cbn [fpow]; [ring|]. rewrite IH. ring. Qed.
  Lemma fpow_mul x n m : fpow x (n * m) = fpow (fpow x n) m.
  Proof.
    induction m as [|m IH]; [rewrite Nat.mul_0_r; reflexivity|].
    rewrite Nat.mul_succ_r, Nat.add_comm, fpow_add, IH. reflexivity.
  Qed.
  Lemma fpow_1_l n : fpow (1 : F) n = 1.
  Proof. induction n as [|n IH]; cbn [fpow]; [reflexivity|]. rewrite IH. ring. Qed.
  Lemma fpow_neq_0 x n : x <> 0 -> fpow x n <> 0.
  Proof.
    intros Hx. induction n; cbn [fpow]; [exact f1_neq_0|apply fmul_neq_0; assumption].
  Qed.
  Lemma fpow_inv x n : x <> 0 -> fpow (finv x) n = finv (fpow x n).
  Proof.
    intros Hx. induction n as [|n IH]; cbn [fpow]; [symmetry; exact finv_1|].
    rewrite IH, finv_mul; auto using fpow_neq_0.
  Qed.
  Lemma fpow_inv_l x n : x <> 0 -> fpow (finv x) n * fpow x n = 1.
  Proof. intros. rewrite fpow_inv by assumption. apply finv_l, fpow_neq_0; assumption. Qed.

  Lemma fnat_add n m : fnat (n + m) = (fnat n : F) + fnat m.
  Proof. induction n as [|n IH]; cbn [fnat Nat.add]; [ring|]. rewrite IH. ring. Qed.
  Lemma fnat_mul n m : fnat (n * m) = (fnat n : F) * fnat m.
  Proof. induction n as [|n IH]; cbn [fnat Nat.mul]; [ring|]. rewrite fnat_add, IH. ring. Qed.

  Lemma fpos_succ p : fpos (Pos.succ p) = (1 : F) + fpos p.
  Proof. induction p as [p IH|p IH|]; cbn [fpos Pos.succ]; try rewrite IH; ring. Qed.
  Lemma fN_succ n : fN (N.succ n) = (1 : F) + fN n.
  Proof. destruct n; cbn [fN N.succ]; [cbn [fpos]; ring|apply fpos_succ]. Qed.
  Lemma fN_add n m : fN (n + m) = (fN n : F) + fN m.
  Proof.
    induction n as [|n IH] using N.peano_ind; [rewrite N.add_0_l; cbn [fN]; ring|].
    rewrite N.add_succ_l, !fN_succ, IH. ring.
  Qed.
  Lemma fN_mul n m : fN (n * m) = (fN n : F) * fN m.
  Proof.
    induction n as [|n IH] using N.peano_ind; [rewrite N.mul_0_l; cbn [fN]; ring|].
    rewrite N.mul_succ_l, fN_add, fN_succ, IH. ring.
  Qed.
  Lemma fN_of_nat n : fN (N.of_nat n) = (fnat n : F).
  Proof.
    induction n as [|n IH]; [reflexivity|]. rewrite Nat2N.inj_succ, fN_succ, IH. reflexivity.
  Qed.
  Lemma fN_0 : fN 0 = (0 : F). Proof. reflexivity. Qed.
  Lemma fN_1 : fN 1 = (1 : F). Proof. reflexivity. Qed.
End FieldLemmas.

(** Simplify boolean field comparisons in the context. *)
Ltac feq_case x y := destruct (feqb_spec _ x y).
