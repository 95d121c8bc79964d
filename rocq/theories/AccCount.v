(** * Counting the challenges for which the late element is in the leaf (C76) *)
From Verif Require Export Late SoundCount.
From Verif Require Import CSProofs UtilProofs ShuffleProofs.
Local Open Scope F_scope.

Section Count.
  Context {F : Field}.
  Add Field FFacount : (f_th F).

  Lemma at_most_or {A} j k (f : A -> bool) (P Q : A -> Prop) : (forall a, f a = true <-> P a) -> at_most j P -> at_most k Q -> at_most (j + k) (fun a => P a \/ Q a).
  Proof.
    intros Hf HP HQ l Hnd Hl. rewrite (filter_length_split f l).
    assert (H1 : (length (filter f l) <= j)%nat). { apply HP; [apply NoDup_filter; exact Hnd|]. apply Forall_forall. intros a Ha. apply filter_In in Ha as [_ Ha]. apply Hf, Ha. }
    assert (H2 : (length (filter (fun a => negb (f a)) l) <= k)%nat).
    { apply HQ; [apply NoDup_filter; exact Hnd|]. apply Forall_forall. intros a Ha. apply filter_In in Ha as [Hi Ha]. rewrite Forall_forall in Hl. destruct (Hl a Hi) as [Hp|Hq]; [|exact Hq].
      apply Hf in Hp. rewrite Hp in Ha. discriminate Ha. }
    lia.
  Qed.
  Lemma at_most_any {A B} k (f : B -> A -> bool) (P : B -> A -> Prop) : (forall b a, f b a = true <-> P b a) -> forall bs, (forall b, In b bs -> at_most k (P b)) -> at_most (length bs * k) (fun a => Exists (fun b => P b a) bs).
  Proof.
    intros Hf. induction bs as [|b bs IH]; intros H.
    - intros l _ Hl. destruct l as [|a l]; [cbn; lia|]. apply Forall_inv in Hl. inversion Hl.
    - cbn [length Nat.mul]. eapply at_most_weaken; [reflexivity| |exact (at_most_or k (length bs * k) (f b) _ _ (Hf b) (H b (or_introl eq_refl)) (IH (fun b' Hb => H b' (or_intror Hb))))].
      intros a Ha. apply Exists_cons in Ha. exact Ha.
  Qed.

  (** The challenges for which there is no late element, or it is one of [elements]
      (specification, no code modelled). *)
  Definition unlucky (e0 : F) (elements : list F) (z : F) : Prop :=
    peval (marks (length elements)) z = 0 \/ Exists (fun x => (x - e0) * peval (marks (length elements)) z = differences e0 elements * fpow z (2 * (length elements - 1))) elements.
  (** The attacker of C76 (no code modelled): the element for which a proof made with the
      wrong element [e0] is accepted, when its challenge is [z]. *)
  Definition late_element (e0 : F) (elements : list F) (z : F) : F :=
    e0 + differences e0 elements * fpow z (2 * (length elements - 1)) * finv (peval (marks (length elements)) z).
  Lemma late_solves e0 elements z : peval (marks (length elements)) z <> 0 ->
    (late_element e0 elements z - e0) * peval (marks (length elements)) z = differences e0 elements * fpow z (2 * (length elements - 1)).
  Proof. intros Hm. unfold late_element. field. exact Hm. Qed.
  Lemma marks_head k : (2 <= k)%nat -> exists cs, marks (F := F) k = 1 :: cs /\ length cs = (2 * (k - 1))%nat.
  Proof.
    intros Hk. unfold marks. destruct k as [|[|k]]; try lia. replace (S (S k) - 1)%nat with (S k) by lia. cbn [loop_marks]. eexists. split; [reflexivity|]. cbn [length]. rewrite marks_length. lia.
  Qed.
  Lemma few_unlucky e0 elements : (2 <= length elements)%nat -> ~ In e0 elements -> at_most ((length elements + 1) * (2 * (length elements - 1))) (unlucky e0 elements).
  Proof.
    intros Hk He. set (k := length elements) in *. destruct (marks_head k Hk) as (cs & Hm & Hl). set (d := (2 * (k - 1))%nat) in *.
    replace ((k + 1) * d)%nat with (d + k * d)%nat by lia. apply (at_most_or d (k * d) (fun z : F => feqb (peval (marks k) z) 0)).
    - intros a. apply feqb_true.
    - eapply at_most_weaken; [reflexivity| |apply (at_most_roots d (marks k)); rewrite Hm; cbn [length]; lia]. intros a Ha. split; [|exact Ha]. rewrite Hm. left. apply f1_neq_0.
    - apply (at_most_any d (fun x z => feqb ((x - e0) * peval (marks k) z) (differences e0 elements * fpow z d))).
      + intros x z. apply feqb_true.
      + intros x Hx. set (ds := repeat (0 : F) d ++ [1 : F]).
        assert (Hds : length ds = S d) by (unfold ds; rewrite app_length, repeat_length; cbn; lia).
        eapply at_most_weaken; [reflexivity| |apply (at_most_roots d (zipw (fun a b => a + (- differences e0 elements) * b) (map (fun c => (x - e0) * c) (marks k)) ds))].
        2:{ rewrite zipw_length, map_length, Hm, Hds. cbn [length]. lia. }
        intros z Hz. change ((x - e0) * peval (marks k) z = differences e0 elements * fpow z d) in Hz. split.
        * rewrite Hm. unfold ds. destruct d as [|d'] eqn:Ed; [lia|]. cbn [map repeat app zipw]. left. intros H. apply He.
          assert (Hx0 : x - e0 = 0) by (rewrite <- H; ring). apply (proj1 (fsub_0_iff _ _)) in Hx0. subst x. exact Hx.
        * rewrite (peval_zip (fun a b => a + (- differences e0 elements) * b) (- differences e0 elements) z (fun _ _ => eq_refl)) by (rewrite map_length, Hm, Hds; cbn [length]; lia).
          rewrite peval_scale, Hz. unfold ds. rewrite peval_app, peval_zero, repeat_length by (apply Forall_forall; intros c Hc; apply repeat_spec in Hc; exact Hc). cbn [peval]. ring.
  Qed.
End Count.
