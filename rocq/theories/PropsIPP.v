(** * Properties of the inner-product argument (C11-C14) *)
From Verif Require Import IPPSpec IPPProofs IPPSound Toy.
From Coq Require Import Lia.
Local Open Scope F_scope.

(** ** C11: completeness *)

Theorem C11_ipp_complete : forall (F : Field) (V : VSpace F) (E : TrEnv V) tr Q Gf Hf G H a b p tr',
  ipp_create E tr Q Gf Hf G H a b = Some (p, tr') ->
  (N.of_nat (length G) < 2 ^ 32)%N ->
  Forall (fun L => L <> v0) (ipp_L p) -> Forall (fun R => R <> v0) (ipp_R p) ->
  ipp_verify E p (length G) tr Gf Hf (ipp_statement Q Gf Hf G H a b) Q G H = Some (Ok tt).
Proof. intros. eapply ipp_complete; eassumption. Qed.

(** [create] itself only fails when a challenge cannot be drawn or is zero. *)
Theorem C11_create_total : forall (F : Field) (V : VSpace F) (E : TrEnv V) tr Q Gf Hf G H a b k,
  (forall tr l, exists c tr', challenge_scalar E tr l = Some (c, tr') /\ c <> 0) ->
  length G = (2 ^ k)%nat -> length H = length G -> length a = length G -> length b = length G ->
  length Gf = length G -> length Hf = length G ->
  exists p tr', ipp_create E tr Q Gf Hf G H a b = Some (p, tr') /\
    length (ipp_L p) = k /\ length (ipp_R p) = k.
Proof.
  intros F V E tr Q Gf Hf G H a b k Hc HG HH Ha Hb HGf HHf.
  destruct (ipp_create_total E tr Q Gf Hf G H a b k Hc HG HH Ha Hb HGf HHf) as [[p tr'] Hr].
  exists p, tr'. split; [exact Hr|]. apply ipp_create_spec in Hr as (k' & us & Hk & _ & _ & _ & _ & _ & _ & HL & HR & _).
  assert (k' = k) by (rewrite HG in Hk; apply Nat.pow_inj_r in Hk; lia). split; congruence.
Qed.

(** The prover's and the verifier's transcripts end in the same state. *)
Theorem C11_same_transcript : forall (F : Field) (V : VSpace F) (E : TrEnv V) tr Q Gf Hf G H a b p tr',
  ipp_create E tr Q Gf Hf G H a b = Some (p, tr') ->
  (N.of_nat (length G) < 2 ^ 32)%N ->
  Forall (fun L => L <> v0) (ipp_L p) -> Forall (fun R => R <> v0) (ipp_R p) ->
  exists sq isq s, ipp_verification_scalars E p (length G) tr = Some (Ok (sq, isq, s, tr')).
Proof.
  intros F V E tr Q Gf Hf G H a b p tr' Hc H32 HL HR.
  apply ipp_create_spec in Hc as (k & us & Hk & HH & Ha & Hb & HGf & HHf & Hus & HLs & HRs & Hnz & Hch & Heq).
  do 3 eexists. apply verification_scalars_spec. exists us, tr'.
  split; [apply Hch; assumption|]. rewrite HLs. split; [|split; [exact Hk|split; [congruence|reflexivity]]].
  assert (2 ^ N.of_nat k < 2 ^ 32)%N as Hlt by (rewrite Hk in H32; rewrite Nat2N.inj_pow in H32; exact H32).
  apply N.pow_lt_mono_r_iff in Hlt; lia.
Qed.
Print Assumptions C11_ipp_complete.
Print Assumptions C11_create_total.
Print Assumptions C11_same_transcript.

(** Four-dimensional example with factors: the proof exists, has non-identity points. *)
Definition ex_v (l : list Z) : list F101 := map z101 l.
(* test data or vocabulary of statements, no code modelled *)
Definition ex_G : list (RegV F101) := ex_v [3; 9; 11; 60]%Z.
(* test data or vocabulary of statements, no code modelled *)
Definition ex_H : list (RegV F101) := ex_v [5; 77; 2; 8]%Z.
(* test data or vocabulary of statements, no code modelled *)
Definition ex_Gf : list F101 := ex_v [1; 1; 6; 6]%Z.
(* test data or vocabulary of statements, no code modelled *)
Definition ex_Hf : list F101 := ex_v [1; 7; 49; 40]%Z.
(* test data or vocabulary of statements, no code modelled *)
Definition ex_a : list F101 := ex_v [4; 8; 15; 16]%Z.
(* test data or vocabulary of statements, no code modelled *)
Definition ex_b : list F101 := ex_v [23; 42; 99; 1]%Z.
Example C11_demo :
  match ipp_create E101 [] (z101 13) ex_Gf ex_Hf ex_G ex_H ex_a ex_b with
  | Some (p, _) => forallb (fun x => negb (veqb x v0)) (ipp_L p ++ ipp_R p) && Nat.eqb (length (ipp_L p)) 2
  | None => false
  end = true.
Proof. vm_compute. reflexivity. Qed.

(** ** C12: the verification scalars *)

Theorem C12_verification_scalars : forall (F : Field) (V : VSpace F) (E : TrEnv V) p n tr sq isq s tr',
  ipp_verification_scalars E p n tr = Some (Ok (sq, isq, s, tr')) ->
  exists us,
    ipp_challenges E (innerproduct_domain_sep tr (N.of_nat n)) (ipp_L p) (ipp_R p) = Some (Ok (us, tr')) /\
    length us = length (ipp_L p) /\ n = (2 ^ length us)%nat /\
    sq = map (fun u => u * u) us /\
    isq = map (fun u => inv_or_zero u * inv_or_zero u) us /\
    length s = n /\
    (forall i, (i < n)%nat -> nth i s 0 = signed_product us i) /\
    (Forall (fun u => u <> 0) us -> forall i, (i < n)%nat -> nth i s 0 * nth (n - 1 - i) s 0 = 1).
Proof.
  intros F V E p n tr sq isq s tr' H. apply verification_scalars_spec in H as (us & tr2 & Hc & Hlt & Hn & Hlu & Heq).
  injection Heq as -> -> -> ->. exists us. split; [exact Hc|]. split; [exact Hlu|].
  rewrite <- Hlu in Hn. split; [exact Hn|]. split; [reflexivity|]. split; [reflexivity|].
  split; [rewrite svec_length; congruence|]. split.
  - intros i Hi. apply nth_svec. congruence.
  - intros Hnz i Hi. rewrite Hn in *. apply svec_inverse; assumption.
Qed.
Print Assumptions C12_verification_scalars.
Example C12_demo :
  match ipp_verification_scalars E101 (mkIPP (V:=RegV F101) (ex_v [7; 3; 1]%Z) (ex_v [2; 9; 4]%Z) (z101 1) (z101 1)) 8 [] with
  | Some (Ok (_, _, s, _)) => Nat.eqb (length s) 8
  | _ => false
  end = true.
Proof. vm_compute. reflexivity. Qed.
(** Reading of [signed_product] on three challenges: index 5 is binary 101. *)
Example C12_reading : forall u1 u2 u3 : F101, u2 <> 0 ->
  signed_product [u1; u2; u3] 5 = u1 * (finv u2 * (u3 * 1)).
Proof. intros u1 u2 u3 H2. cbn. rewrite inv_or_zero_inv by exact H2. reflexivity. Qed.

(** ** C13: special soundness *)

(** The extractor sees the challenges and the final scalars only; it gives an opening
    or the coefficients of a relation.  It is the same for all groups and generators, so
    the theorem says something also about groups of prime order, where openings and
    relations always exist. *)
Theorem C13_ipp_special_sound : forall F : Field, exists extract : nat -> stree F -> list F * list F + list F * list F * F,
  forall (V : VSpace F) k (t : itree V) Gf Hf P Q G H,
  length G = (2 ^ k)%nat -> length H = length G -> length Gf = length G -> length Hf = length G ->
  well_branched k t ->
  (forall us Ls Rs a b, branch t us Ls Rs a b -> accepted Gf Hf P Q G H us Ls Rs a b) ->
  match extract k (scalars_of t) with
  | inl (a, b) => length a = length G /\ length b = length G /\ P = ipp_statement Q Gf Hf G H a b
  | inr (a, b, c) => relation_by Q (scaled Gf G) (scaled Hf H) a b c
  end.
Proof.
  intros F. exists (fun k t => match tree_ext k t with inl ab => inl ab | inr d => inr (rG d, rH d, rQ d) end).
  intros V k t Gf Hf P Q G H HG HH HGf HHf Hw Ha. pose proof (ipp_sound k t Gf Hf P Q G H HG HH HGf HHf Hw Ha) as Hx.
  destruct (tree_ext k (scalars_of t)) as [[a b]|d]; exact Hx.
Qed.
Print Assumptions C13_ipp_special_sound.

(** A tree of accepting transcripts whose generators are the unit vectors of [F101^5]. *)
Definition ex5_G : list V5 := [v5 1 0 0 0 0; v5 0 1 0 0 0].
(* test data or vocabulary of statements, no code modelled *)
Definition ex5_H : list V5 := [v5 0 0 1 0 0; v5 0 0 0 1 0].
(* test data or vocabulary of statements, no code modelled *)
Definition ex5_Q : V5 := v5 0 0 0 0 1.
(* test data or vocabulary of statements, no code modelled *)
Definition ex5_f : list F101 := [z101 1; z101 1].
(* test data or vocabulary of statements, no code modelled *)
Definition ex5_a : list F101 := ex_v [3; 4]%Z.
(* test data or vocabulary of statements, no code modelled *)
Definition ex5_b : list F101 := ex_v [5; 6]%Z.
(** The honest prover's transcript for challenge [u]. *)
Definition ex5_proof (u : Z) : IPPProof V5 :=
  match ipp_create (const_env V5 (z101 u)) [] ex5_Q ex5_f ex5_f ex5_G ex5_H ex5_a ex5_b with
  | Some (p, _) => p
  | None => mkIPP [] [] 0 0
  end.
(** L = <a_L,G_R> + <b_R,H_L> + <a_L,b_R> Q and R symmetrically *)
Definition ex5_L : V5 := v5 0 3 6 0 18.
(* test data or vocabulary of statements, no code modelled *)
Definition ex5_R : V5 := v5 4 0 0 5 20.
(* test data or vocabulary of statements, no code modelled *)
Definition ex5_leaf (u : Z) : itree V5 := Leaf (ipp_a (ex5_proof u)) (ipp_b (ex5_proof u)).
(* test data or vocabulary of statements, no code modelled *)
Definition ex5_tree : itree V5 :=
  Node ex5_L ex5_R (z101 1) (ex5_leaf 1) (z101 2) (ex5_leaf 2) (z101 3) (ex5_leaf 3) (z101 4) (ex5_leaf 4).
(* test data or vocabulary of statements, no code modelled *)
Definition ex5_P : V5 := ipp_statement ex5_Q ex5_f ex5_f ex5_G ex5_H ex5_a ex5_b.
(* test data or vocabulary of statements, no code modelled *)
Definition accepts (o : option (Res unit)) : bool := match o with Some (Ok tt) => true | _ => false end.
Lemma accepts_eq o : accepts o = true -> o = Some (Ok tt).
Proof. destruct o as [[[]|]|]; cbn; intros; try discriminate; reflexivity. Qed.

Lemma branch_depth1 {F : Field} {V : VSpace F} (L R : V) (u1 u2 u3 u4 a1 b1 a2 b2 a3 b3 a4 b4 : F) us Ls Rs a b :
  branch (Node L R u1 (Leaf a1 b1) u2 (Leaf a2 b2) u3 (Leaf a3 b3) u4 (Leaf a4 b4)) us Ls Rs a b ->
  Ls = [L] /\ Rs = [R] /\
  (us = [u1] /\ a = a1 /\ b = b1 \/ us = [u2] /\ a = a2 /\ b = b2 \/
   us = [u3] /\ a = a3 /\ b = b3 \/ us = [u4] /\ a = a4 /\ b = b4).
Proof.
  intros Hb. inversion Hb; subst; match goal with H : branch _ _ _ _ _ _ |- _ => inversion H; subst end; auto 10.
Qed.

Lemma ex5_accepted u : veqb ex5_L v0 = false -> veqb ex5_R v0 = false ->
  accepts (ipp_verify (const_env V5 (z101 u)) (mkIPP [ex5_L] [ex5_R] (ipp_a (ex5_proof u)) (ipp_b (ex5_proof u)))
    2 [] ex5_f ex5_f ex5_P ex5_Q ex5_G ex5_H) = true ->
  accepted ex5_f ex5_f ex5_P ex5_Q ex5_G ex5_H [z101 u] [ex5_L] [ex5_R] (ipp_a (ex5_proof u)) (ipp_b (ex5_proof u)).
Proof.
  intros HL HR Ha. exists (const_env V5 (z101 u)), []. eexists. split.
  - cbn [ipp_challenges]. unfold validate_and_append_point. rewrite HL, HR. reflexivity.
  - apply accepts_eq. exact Ha.
Qed.
Example C13_demo :
  well_branched 1 ex5_tree /\
  forall us Ls Rs a b, branch ex5_tree us Ls Rs a b -> accepted ex5_f ex5_f ex5_P ex5_Q ex5_G ex5_H us Ls Rs a b.
Proof.
  assert (Hz : forall x y : F101, Z.eqb (i101 x) (i101 y) = false -> x <> y).
  { intros x y Hb ->. rewrite Z.eqb_refl in Hb. discriminate. }
  split.
  - cbn [well_branched ex5_tree ex5_leaf]. split; [|split; [|auto]].
    + repeat constructor; apply Hz; vm_compute; reflexivity.
    + repeat constructor; cbn [In map]; intros Hin; repeat destruct Hin as [Hin|Hin]; try exact Hin;
        revert Hin; apply Hz; vm_compute; reflexivity.
  - intros us Ls Rs a b Hb. unfold ex5_tree in Hb.
    assert (HL : veqb ex5_L v0 = false) by (vm_compute; reflexivity).
    assert (HR : veqb ex5_R v0 = false) by (vm_compute; reflexivity).
    apply branch_depth1 in Hb as (-> & -> & [(-> & -> & ->)|[(-> & -> & ->)|[(-> & -> & ->)|(-> & -> & ->)]]]);
      (apply ex5_accepted; [exact HL|exact HR|vm_compute; reflexivity]).
Qed.

(** ** C14: proofs whose [L] and [R] lists differ in length (inner-product level) *)

(** Fewer [R] than [L]: never accepted. *)
Theorem C14_short_never_accepted_partial : forall (F : Field) (V : VSpace F) (E : TrEnv V) p n tr Gf Hf P Q G H,
  (length (ipp_R p) < length (ipp_L p))%nat ->
  ipp_verify E p n tr Gf Hf P Q G H <> Some (Ok tt).
Proof.
  intros F V E p n tr Gf Hf P Q G H Hlt Hv. unfold ipp_verify in Hv.
  destruct (ipp_verification_scalars E p n tr) as [[r|]|] eqn:Hs; try discriminate.
  apply verification_scalars_spec in Hs as (us & tr2 & Hc & _ & _ & Hlu & _).
  apply challenges_length in Hc. lia.
Qed.
(** ... but instead of the error, the verifier can panic. *)
Theorem C14_short_panics_refuted : exists (F : Field) (V : VSpace F) (E : TrEnv V) p n tr Gf Hf P Q G H,
  (length (ipp_R p) < length (ipp_L p))%nat /\ length G = n /\ length H = n /\ length Gf = n /\ length Hf = n /\
  ipp_verify E p n tr Gf Hf P Q G H = None.
Proof.
  exists F101, (RegV F101), E101, (mkIPP (V:=RegV F101) (ex_v [7; 3]%Z) (ex_v [2]%Z) (z101 1) (z101 1)), 4%nat, [],
    ex_Gf, ex_Hf, (z101 1), (z101 1), ex_G, ex_H.
  repeat (split; [cbn; lia|]).
  apply is_some_none. vm_compute. reflexivity.
Qed.
(** More [R] than [L]: surplus points are ignored, so every accepted proof has
    infinitely many accepted variants. *)
Theorem C14_long_ignored_refuted : forall (F : Field) (V : VSpace F) (E : TrEnv V) Ls Rs X a b n tr Gf Hf P Q G H,
  length Rs = length Ls -> length G = n -> length H = n -> length Gf = n -> length Hf = n ->
  ipp_verify E (mkIPP Ls (Rs ++ X) a b) n tr Gf Hf P Q G H = ipp_verify E (mkIPP Ls Rs a b) n tr Gf Hf P Q G H.
Proof.
  intros F V E Ls Rs X a b n tr Gf Hf P Q G H HR HG HH HGf HHf.
  assert (Hc : forall tr Ls Rs, length Rs = length Ls -> ipp_challenges E tr Ls (Rs ++ X) = ipp_challenges E tr Ls Rs).
  { intros tr0 Ls0. revert tr0. induction Ls0 as [|L Ls0 IH]; intros tr0 [|R Rs0] Hl; try discriminate; [destruct X; reflexivity|].
    cbn. destruct (validate_and_append_point E tr0 "L" L) as [tr1|]; [|reflexivity].
    destruct (validate_and_append_point E tr1 "R" R) as [tr2|]; [|reflexivity].
    destruct (challenge_scalar E tr2 "u") as [[u tr3]|]; [|reflexivity]. cbn. rewrite IH by (cbn in Hl; lia). reflexivity. }
  assert (Hvs : ipp_verification_scalars E (mkIPP Ls (Rs ++ X) a b) n tr = ipp_verification_scalars E (mkIPP Ls Rs a b) n tr).
  { unfold ipp_verification_scalars. cbn [ipp_L ipp_R]. rewrite Hc by exact HR. reflexivity. }
  unfold ipp_verify. rewrite Hvs. cbn [ipp_L ipp_R ipp_a ipp_b].
  destruct (ipp_verification_scalars E (mkIPP Ls Rs a b) n tr) as [[[[[sq isq] s] tr2]|]|] eqn:Hs; try reflexivity.
  apply verification_scalars_spec in Hs as (us & tr3 & Hcc & Hlt & Hn & Hlu & Heq). injection Heq as -> -> -> ->.
  cbn [ipp_L ipp_R] in *. cbn [opt_bind].
  assert (Hm : forall (c : list F) (x y : list V), length c = length x -> msm c (x ++ y) = msm c x).
  { intros c x y H1. rewrite <- (app_nil_r c) at 1. rewrite msm_app by exact H1. cbn [msm]. apply vadd_0_r. }
  match goal with |- (if veqb ?x P then _ else _) = (if veqb ?y P then _ else _) => replace x with y; [reflexivity|] end.
  assert (Hsv : length (svec us) = n) by (rewrite svec_length; congruence).
  cbn [msm]. f_equal. rewrite !msm_app.
  - do 3 f_equal. symmetry. apply Hm. rewrite !map_length. lia.
  - rewrite !map_length. lia.
  - rewrite zipw_length, rev_length, Hsv. lia.
  - rewrite firstn_length, zipw_length, Hsv. lia.
  - rewrite !map_length. lia.
  - rewrite zipw_length, rev_length, Hsv. lia.
  - rewrite firstn_length, zipw_length, Hsv. lia.
Qed.
Print Assumptions C14_short_never_accepted_partial.
Print Assumptions C14_short_panics_refuted.
Print Assumptions C14_long_ignored_refuted.
(** An accepted proof with a surplus point. *)
Example C14_long_demo :
  accepts (ipp_verify (const_env V5 (z101 2)) (mkIPP [ex5_L] [ex5_R; v5 9 9 9 9 9] (ipp_a (ex5_proof 2)) (ipp_b (ex5_proof 2)))
    2 [] ex5_f ex5_f ex5_P ex5_Q ex5_G ex5_H) = true.
Proof. vm_compute. reflexivity. Qed.
