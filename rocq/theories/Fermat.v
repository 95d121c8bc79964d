(** * Fermat's little theorem and Euler's criterion in a prime field

    Used to show that the constants of the curves in use are not squares, i.e. that
    these curves have no point with x = 0. *)
From Verif Require Export RerandArith.
From Coq Require Import Permutation.
Local Open Scope F_scope.

Section Fermat.
  Context {S : PField}.
  Add Field FSfer : (f_th S).

  (* vocabulary of specifications and proofs, no code modelled *)
  Definition fprod (l : list S) : S := fold_right fmul 1 l.
  Lemma fprod_perm l l' : Permutation l l' -> fprod l = fprod l'.
  Proof. unfold fprod. induction 1; cbn [fold_right] in *; [reflexivity|congruence|ring|congruence]. Qed.
  Lemma fprod_scale x l : fprod (map (fmul x) l) = fpow x (length l) * fprod l.
  Proof. unfold fprod. induction l as [|y l IH]; cbn [map fold_right length fpow]; [ring|]. rewrite IH. ring. Qed.
  Lemma fprod_nonzero l : ~ In 0 l -> fprod l <> 0.
  Proof.
    unfold fprod. induction l as [|y l IH]; intros H; cbn [fold_right]; [apply f1_neq_0|]. intros E. apply fmul_eq_0 in E as [E|E]; [apply H; left; congruence|].
    revert E. apply IH. intros H'. apply H. right. exact H'.
  Qed.
  (* vocabulary of specifications and proofs, no code modelled *)
  Definition units : list S := map (fun n => fN (N.of_nat n)) (seq 1 (N.to_nat (pf_mod S) - 1)).
  Lemma units_repr n : (1 <= n < N.to_nat (pf_mod S))%nat -> pf_repr (fN (N.of_nat n) : S) = N.of_nat n.
  Proof. intros H. rewrite pf_repr_of. apply N.mod_small. lia. Qed.
  Lemma units_spec (x : S) : In x units <-> x <> 0.
  Proof.
    split.
    - intros H. apply in_map_iff in H as (n & <- & Hn). apply in_seq in Hn. intros E. apply (f_equal pf_repr) in E. rewrite units_repr in E by lia.
      change (0 : S) with (fN 0 : S) in E. rewrite pf_repr_of, N.mod_0_l in E by (pose proof (pf_mod_pos (S:=S)); lia). lia.
    - intros Hx. apply in_map_iff. exists (N.to_nat (pf_repr x)). rewrite N2Nat.id, pf_repr_fN. split; [reflexivity|]. apply in_seq.
      pose proof (pf_repr_lt _ x). assert (pf_repr x <> 0%N). { intros E. apply Hx. rewrite <- (pf_repr_fN S x), E. reflexivity. } lia.
  Qed.
  Lemma units_nodup : NoDup units.
  Proof.
    unfold units. assert (G : forall l : list nat, NoDup l -> Forall (fun n => (1 <= n < N.to_nat (pf_mod S))%nat) l -> NoDup (map (fun n => fN (N.of_nat n) : S) l)).
    { induction 1 as [|n l Hn _ IH]; intros HF; cbn; constructor; apply Forall_cons_iff in HF as [Hb HF].
      - intros Hin. apply in_map_iff in Hin as (m & E & Hm). apply (f_equal pf_repr) in E. rewrite Forall_forall in HF. specialize (HF m Hm). rewrite !units_repr in E by lia.
        apply Hn. replace n with m by lia. exact Hm.
      - apply IH, HF. }
    apply G; [apply seq_NoDup|]. apply Forall_forall. intros n Hn. apply in_seq in Hn. lia.
  Qed.
  Lemma fermat (x : S) : x <> 0 -> fpow x (N.to_nat (pf_mod S - 1)) = 1.
  Proof.
    intros Hx. assert (Hp : Permutation (map (fmul x) units) units).
    { apply NoDup_Permutation_bis.
      - assert (G : forall l : list S, NoDup l -> NoDup (map (fmul x) l)).
        { induction 1 as [|y l Hy _ IH]; cbn; constructor; [|exact IH]. intros Hin. apply in_map_iff in Hin as (z & E & Hz). apply fmul_cancel_l in E; [congruence|exact Hx]. }
        apply G, units_nodup.
      - rewrite map_length. lia.
      - intros z Hz. apply in_map_iff in Hz as (y & <- & Hy). apply units_spec. apply units_spec in Hy. intros E. apply fmul_eq_0 in E as [E|E]; contradiction. }
    apply fprod_perm in Hp. rewrite fprod_scale in Hp.
    assert (Hn : fprod units <> 0) by (apply fprod_nonzero; intros H; apply units_spec in H; congruence).
    assert (Hl : length units = N.to_nat (pf_mod S - 1)) by (unfold units; rewrite map_length, seq_length; lia). rewrite Hl in Hp.
    apply (fmul_cancel_l (fprod units)); [exact Hn|]. transitivity (fpow x (N.to_nat (pf_mod S - 1)) * fprod units); [ring|]. rewrite Hp. ring.
  Qed.
  (** square-and-multiply on representatives *)
  Fixpoint powm (q b : N) (e : positive) : N :=
    match e with
    | xH => b mod q
    | xO e => let r := powm q b e in (r * r) mod q
    | xI e => let r := powm q b e in ((r * r) mod q * b) mod q
    end.
  Lemma fN_mod n : (fN (n mod pf_mod S) : S) = fN n.
  Proof. rewrite <- pf_repr_of. apply pf_repr_fN. Qed.
  Lemma powm_spec b e : (fpow (fN b) (Pos.to_nat e) : S) = fN (powm (pf_mod S) b e).
  Proof.
    induction e as [e IH|e IH|]; cbn [powm].
    - rewrite Pos2Nat.inj_xI. replace (Datatypes.S (2 * Pos.to_nat e)) with (Pos.to_nat e + Pos.to_nat e + 1)%nat by lia. rewrite !fpow_add, IH. cbn [fpow].
      rewrite fN_mod, !fN_mul, fN_mod, fN_mul. ring.
    - rewrite Pos2Nat.inj_xO. replace (2 * Pos.to_nat e)%nat with (Pos.to_nat e + Pos.to_nat e)%nat by lia. rewrite !fpow_add, IH, fN_mod, fN_mul. reflexivity.
    - rewrite fN_mod. change (Pos.to_nat 1) with 1%nat. cbn [fpow]. ring.
  Qed.
  (** Euler: if b^((q-1)/2) is not 1, b is not a square *)
  Lemma euler_nonsquare (b : N) (e : positive) : (pf_mod S = 2 * Npos e + 1)%N -> (powm (pf_mod S) b e <> 1)%N -> (b mod pf_mod S <> 0)%N ->
    forall y : S, y * y <> fN b.
  Proof.
    intros Hq Hp Hb y E. assert (Hy : y <> 0).
    { intros ->. assert (E0 : (fN b : S) = 0) by (rewrite <- E; ring). apply fN_eq_0 in E0. contradiction. }
    pose proof (fermat y Hy) as HF. rewrite Hq in HF. replace (N.to_nat (2 * N.pos e + 1 - 1)) with (Pos.to_nat e + Pos.to_nat e)%nat in HF by lia.
    assert (E1 : (fpow (y * y) (Pos.to_nat e) : S) = 1) by (rewrite fpow_mul_l, <- fpow_add; exact HF).
    rewrite E, powm_spec in E1. apply (f_equal pf_repr) in E1. rewrite pf_repr_of in E1. change (1 : S) with (fN 1 : S) in E1. rewrite pf_repr_of in E1.
    assert (Hm : (forall e, powm (pf_mod S) b e < pf_mod S)%N) by (intros e'; destruct e'; cbn [powm]; apply N.mod_lt; lia).
    rewrite !N.mod_small in E1 by (try apply Hm; lia). contradiction.
  Qed.
End Fermat.
