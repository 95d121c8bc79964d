(** * Public inputs and the transcript (C51) *)
From Verif Require Import UtilProofs SelPath CSProofs Toy ToyCurve PropsGadgets PropsRerand PropsTree PropsSelRerand PropsPrivacy PropsSelBatch PropsCoin PropsSerial Binding.
Local Open Scope F_scope.

(* specification, no code modelled *)
Definition injective {A B} (f : A -> B) : Prop := forall x y, f x = f y -> x = y.

Section Paths.
  Context {F0 F1 : PField} {P0 : SWCurve F1 F0} {P1 : SWCurve F0 F1}.
  Variables (E0 : TrEnv P0) (E1 : TrEnv P1) (enc0 : P0 -> bytes) (enc1 : P1 -> bytes).
  Hypothesis (I0 : injective (enc_point E0)) (I1 : injective (enc_point E1)) (J0 : injective enc0) (J1 : injective enc1).
  Implicit Types (t : CurveTree P0 P1) (p : Path P0 P1).
  Lemma even_events_inj t p p' X Y : path_shape t p -> path_shape t p' -> length (pa_even p) = length (pa_even p') \/ (ends X /\ ends Y) -> even_events E0 enc1 t p ++ X = even_events E0 enc1 t p' ++ Y -> pa_odd p = pa_odd p' /\ pa_even p = pa_even p' /\ X = Y.
  Proof.
    intros S S' HX. unfold even_events, even_parents, path_shape in *. destruct t; intros H.
    - apply (events_inj_top E0 enc1 I0 J1) in H as (-> & -> & ->); auto.
    - apply (events_inj E0 enc1 I0 J1) in H as (-> & -> & ->); auto.
  Qed.
  Lemma odd_events_inj t p p' X Y : path_shape t p -> path_shape t p' -> length (pa_even p) = length (pa_even p') \/ (ends X /\ ends Y) -> odd_events E1 enc0 t p ++ X = odd_events E1 enc0 t p' ++ Y -> p = p' /\ X = Y.
  Proof.
    intros S S' HX. unfold odd_events, odd_parents, path_shape in *. destruct t; intros H.
    - apply (events_inj E1 enc0 I1 J0) in H as (Ho & He & ->); rewrite ?app_length; cbn [length]; try lia; [|destruct HX as [HX|HX]; [left; lia|right; exact HX]]. apply app_inj_tail in He as [He Hs]. destruct p, p'. cbn in *. subst. auto.
    - apply (events_inj_top E1 enc0 I1 J0) in H as (Ho & He & ->); rewrite ?app_length; cbn [length]; try lia; [|destruct HX as [HX|HX]; [left; lia|right; exact HX]]. apply app_inj_tail in He as [He Hs]. destruct p, p'. cbn in *. subst. auto.
  Qed.
End Paths.

(** Two verifiers of single paths in the same tree.  The first thing appended by the verifier of
    the R1CS proofs is the message with label "m" (verifier.rs 493-495), before any challenge.  If the
    transcripts of the even circuits agree up to any later point (in particular when the first
    challenge is drawn), the two paths agree except perhaps for the selected point; if those of
    the odd circuits agree, the paths are the same. *)
Theorem C51_path : forall (F0 F1 : PField) (P0 : SWCurve F1 F0) (P1 : SWCurve F0 F1) (E0 : TrEnv P0) (E1 : TrEnv P1) (enc0 : P0 -> bytes) (enc1 : P1 -> bytes)
    dbg dbg' L (prm : SRParams P0 P1) t p p' (t0 a0 b0 : VState P0) (t1 a1 b1 : VState P1) R R',
  injective (enc_point E0) -> injective (enc_point E1) -> injective enc0 -> injective enc1 ->
  sr_verify E0 E1 enc0 enc1 dbg L prm t p t0 t1 = Some (a0, a1, R) -> sr_verify E0 E1 enc0 enc1 dbg' L prm t p' t0 t1 = Some (b0, b1, R') ->
  (forall m m' X Y, v_tr a0 ++ Msg "m" m :: X = v_tr b0 ++ Msg "m" m' :: Y -> pa_odd p = pa_odd p' /\ pa_even p = pa_even p') /\
  (forall m m' X Y, v_tr a1 ++ Msg "m" m :: X = v_tr b1 ++ Msg "m" m' :: Y -> p = p').
Proof.
  intros F0 F1 P0 P1 E0 E1 enc0 enc1 dbg dbg' L prm t p p' t0 a0 b0 t1 a1 b1 R R' I0 I1 J0 J1 Ha Hb.
  destruct (sr_verify_tr _ _ _ _ _ _ _ _ _ _ _ _ _ _ Ha) as (Sa & A0 & A1), (sr_verify_tr _ _ _ _ _ _ _ _ _ _ _ _ _ _ Hb) as (Sb & B0 & B1). split; intros m m' X Y H.
  - rewrite A0, B0, <- !app_assoc in H. apply app_inv_head in H. apply (even_events_inj E0 enc1 I0 J1) in H; auto; [tauto|]. right. split; discriminate.
  - rewrite A1, B1, <- !app_assoc in H. apply app_inv_head in H. apply (odd_events_inj E1 enc0 I1 J0) in H; auto; [tauto|]. right. split; discriminate.
Qed.
Print Assumptions C51_path.

(* The rest of the transcript does not start with a commitment. *)
Definition ends_V (X : list Event) : Prop := match X with Msg l _ :: _ => l <> "V"%string | _ => True end.
Lemma V_events_inj {F : Field} {V : VSpace F} (E : TrEnv V) (I : injective (enc_point E)) : forall (l l' : list V) X Y, ends_V X -> ends_V Y -> V_events E l ++ X = V_events E l' ++ Y -> l = l' /\ X = Y.
Proof.
  induction l as [|x l IH]; intros [|y l'] X Y HX HY H; cbn [V_events map app] in H.
  - auto.
  - subst X. cbn in HX. congruence.
  - subst Y. cbn in HY. congruence.
  - injection H as H1 H. apply I in H1. destruct (IH l' X Y HX HY H) as [-> ->]. subst. auto.
Qed.
Lemma leaf_events_inj {F0 F1 : PField} {P0 : SWCurve F1 F0} (enc0 : P0 -> bytes) (J : injective enc0) : forall (l l' : list P0) X Y, length l = length l' -> leaf_events enc0 l ++ X = leaf_events enc0 l' ++ Y -> l = l'.
Proof.
  induction l as [|x l IH]; intros [|y l'] X Y HL H; try discriminate HL; [reflexivity|]. cbn [leaf_events map app] in H. injection H as H1 H. apply J in H1. rewrite H1, (IH l' X Y); auto.
Qed.
(** The same for the batched verifier; the number M of selected points is part of the type in the
    code.  The transcript of the even circuit determines only the even points. *)
Theorem C51_batched : forall (F0 F1 : PField) (P0 : SWCurve F1 F0) (P1 : SWCurve F0 F1) (E0 : TrEnv P0) (E1 : TrEnv P1) (enc0 : P0 -> bytes)
    dbg dbg' L M (prm : SRParams P0 P1) t p p' (t0 a0 b0 : VState P0) (t1 a1 b1 : VState P1) R R',
  injective (enc_point E0) -> injective (enc_point E1) -> injective enc0 -> length (mp_selected p) = M -> length (mp_selected p') = M ->
  msr_verify E0 E1 enc0 dbg L M prm t p t0 t1 = Some (a0, a1, R) -> msr_verify E0 E1 enc0 dbg' L M prm t p' t0 t1 = Some (b0, b1, R') ->
  (forall m m' X Y, v_tr a0 ++ Msg "m" m :: X = v_tr b0 ++ Msg "m" m' :: Y -> mp_even p = mp_even p') /\
  (forall m m' X Y, v_tr a1 ++ Msg "m" m :: X = v_tr b1 ++ Msg "m" m' :: Y -> mp_odd p = mp_odd p' /\ mp_selected p = mp_selected p').
Proof.
  intros F0 F1 P0 P1 E0 E1 enc0 dbg dbg' L M prm t p p' t0 a0 b0 t1 a1 b1 R R' I0 I1 J0 La Lb Ha Hb.
  destruct (msr_verify_tr _ _ _ _ _ _ _ _ _ _ _ _ _ _ La Ha) as (A0 & A1), (msr_verify_tr _ _ _ _ _ _ _ _ _ _ _ _ _ _ Lb Hb) as (B0 & B1). split; intros m m' X Y H.
  - rewrite A0, B0, <- !app_assoc in H. apply app_inv_head in H. apply (V_events_inj E0 I0) in H as [H _]; try discriminate. exact H.
  - rewrite A1, B1, <- !app_assoc in H. apply app_inv_head in H. assert (N : forall l m X, ends_V (leaf_events enc0 l ++ Msg "m" m :: X)) by (intros [|x l] ? ?; discriminate).
    apply (V_events_inj E1 I1) in H as [H H']; try apply N. split; [exact H|]. eapply leaf_events_inj; [exact J0|congruence|exact H'].
Qed.
Print Assumptions C51_batched.

(** Pours: with first paths of the same length or a root on the odd curve, the transcript of the even
    circuit determines the minted commitments and both paths; that of the odd circuit both paths.
    Missing: the public keys, and first paths of different lengths below an even root (false, see
    below). *)
Theorem C51_pour_partial : forall (F0 F1 : PField) (P0 : SWCurve F1 F0) (P1 : SWCurve F0 F1) (FC : Field) (C : VSpace FC) (E0 : TrEnv P0) (E1 : TrEnv P1) (enc0 : P0 -> bytes) (enc1 : P1 -> bytes) (enc_pk : C -> bytes) sha3
    dbg dbg' L (prm : SRParams P0 P1) t (po po' : Pour P0 P1 C) p0 p1 p0' p1' (t0 a0 b0 : VState P0) (t1 a1 b1 : VState P1),
  injective (enc_point E0) -> injective (enc_point E1) -> injective enc0 -> injective enc1 ->
  verification_commitments t (po_path0 po) = Some p0 -> verification_commitments t (po_path1 po) = Some p1 -> verification_commitments t (po_path0 po') = Some p0' -> verification_commitments t (po_path1 po') = Some p1' ->
  pour_even_circuit E0 enc1 enc_pk sha3 dbg L prm t po p0 p1 t0 = Some a0 -> pour_odd_circuit E1 enc0 L prm t p0 p1 t1 = Some a1 ->
  pour_even_circuit E0 enc1 enc_pk sha3 dbg' L prm t po' p0' p1' t0 = Some b0 -> pour_odd_circuit E1 enc0 L prm t p0' p1' t1 = Some b1 ->
  t_is_even t = false \/ length (pa_even (po_path0 po)) = length (pa_even (po_path0 po')) ->
  (forall m m' X Y, v_tr a0 ++ Msg "m" m :: X = v_tr b0 ++ Msg "m" m' :: Y -> po_minted0 po = po_minted0 po' /\ po_minted1 po = po_minted1 po' /\ po_path0 po = po_path0 po' /\ po_path1 po = po_path1 po') /\
  (forall m m' X Y, v_tr a1 ++ Msg "m" m :: X = v_tr b1 ++ Msg "m" m' :: Y -> po_path0 po = po_path0 po' /\ po_path1 po = po_path1 po').
Proof.
  intros F0 F1 P0 P1 FC C E0 E1 enc0 enc1 enc_pk sha3 dbg dbg' L prm t po po' p0 p1 p0' p1' t0 a0 b0 t1 a1 b1 I0 I1 J0 J1 H0 H1 H0' H1' A0 A1 B0 B1 HL.
  apply (pour_even_tr _ _ _ _ _ _ _ _ _ _ _ _ _ H0 H1) in A0. apply (pour_even_tr _ _ _ _ _ _ _ _ _ _ _ _ _ H0' H1') in B0.
  apply (pour_odd_tr _ _ _ _ _ _ _ _ _ _ H0 H1) in A1. apply (pour_odd_tr _ _ _ _ _ _ _ _ _ _ H0' H1') in B1.
  apply commitments_shape in H0 as (S0 & _), H1 as (S1 & _), H0' as (S0' & _), H1' as (S1' & _). split; intros m m' X Y H.
  - rewrite A0, B0, <- !app_assoc in H. apply app_inv_head in H. unfold pour_even_events, V_event in H. rewrite <- !app_comm_cons, <- !app_assoc in H. injection H as M0 M1 H. apply I0 in M0, M1.
    apply (even_events_inj E0 enc1 I0 J1) in H as (Ho & He & H); auto.
    2:{ destruct HL as [HL|HL]; [right|left; exact HL]. destruct t as [n|n]; [discriminate HL|]. unfold even_events, even_parents. split; intros m1 m2 Z K; [destruct (pa_even (po_path1 po)), (pa_odd (po_path1 po))|destruct (pa_even (po_path1 po')), (pa_odd (po_path1 po'))]; discriminate K. }
    injection H as K0 H. apply I0 in K0. apply (even_events_inj E0 enc1 I0 J1) in H as (Ho' & He' & H); auto; [|right; split; discriminate]. injection H as K1 _ _. apply I0 in K1.
    destruct (po_path0 po), (po_path0 po'), (po_path1 po), (po_path1 po'). cbn in *. subst. auto.
  - rewrite A1, B1, <- !app_assoc in H. apply app_inv_head in H. unfold pour_odd_events in H. rewrite <- !app_assoc in H.
    apply (odd_events_inj E1 enc0 I1 J0) in H as (K & H); auto.
    + apply (odd_events_inj E1 enc0 I1 J0) in H as (K' & H); auto. right. split; discriminate.
    + destruct HL as [HL|HL]; [right|left; exact HL]. destruct t as [n|n]; [discriminate HL|]. unfold odd_events, odd_parents. split; intros m1 m2 Z K; [destruct (pa_even (po_path1 po))|destruct (pa_even (po_path1 po'))]; discriminate K.
Qed.
Print Assumptions C51_pour_partial.

(** ** What is not bound *)

(* test helpers, no code modelled: the constant terms of constraints *)
Definition const_asg {F : Field} (v : Var) : F := match v with One => 1 | _ => 0 end.
(* test data or vocabulary of statements, no code modelled *)
Definition consts {F : Field} (cs : list (LC F)) : list F := map (lc_val const_asg) cs.
(* test data or vocabulary of statements, no code modelled *)
Definition other_consts {F : Field} (cs cs' : list (LC F)) : bool := negb (list_eqb feqb (consts cs) (consts cs')).
Lemma other_consts_true {F : Field} (cs cs' : list (LC F)) : other_consts cs cs' = true -> cs <> cs'.
Proof.
  unfold other_consts. intros H ->. apply Bool.negb_true_iff in H. assert (G : forall l : list F, list_eqb feqb l l = true) by (induction l as [|x l IH]; cbn; [reflexivity|]; rewrite IH, (proj2 (feqb_true x x) eq_refl); reflexivity).
  rewrite G in H. discriminate H.
Qed.

(** Batched verifier: the re-randomised points on the odd curve are public inputs of the even
    circuit, but nothing about them is in its transcript. *)
Theorem C51_batched_refuted : exists (prm : SRParams TC0 TC1) t p p' (a0 b0 : VState TC0) (a1 b1 : VState TC1) R R', from_set 6 2 2 prm toy_set None = TOk t /\ t_height t = 3%nat /\
  msr_verify EE0 EE1 ec0 true 2 2 prm t p (v_new []) (v_new []) = Some (a0, a1, R) /\ msr_verify EE0 EE1 ec0 true 2 2 prm t p' (v_new []) (v_new []) = Some (b0, b1, R') /\
  mp_odd p <> mp_odd p' /\ v_cs a0 <> v_cs b0 /\ v_tr a0 = v_tr b0.
Proof.
  pose (mp := fun k => mkMPath (P0 := TC0) (P1 := TC1) [k163 7; k163 9] [k139 k] [k163 11]).
  destruct (with_mtree_spec [3; 2]%N (fun prm t e o => (t_height t =? 3)%nat && match msr_verify EE0 EE1 ec0 true 2 2 prm t (mp 5%Z) (v_new []) (v_new []), msr_verify EE0 EE1 ec0 true 2 2 prm t (mp 6%Z) (v_new []) (v_new []) with
    | Some (a0, _, _), Some (b0, _, _) => other_consts (v_cs a0) (v_cs b0) | _, _ => false end)%bool ltac:(vm_compute; reflexivity)) as (prm & t & e & o & H0 & H1 & Ht & Hw & H).
  apply andb_prop in H as [Eh H]. apply Nat.eqb_eq in Eh.
  destruct (msr_verify EE0 EE1 ec0 true 2 2 prm t (mp 5%Z) (v_new []) (v_new [])) as [[[a0 a1] R]|] eqn:Ra; [|discriminate H].
  destruct (msr_verify EE0 EE1 ec0 true 2 2 prm t (mp 6%Z) (v_new []) (v_new [])) as [[[b0 b1] R']|] eqn:Rb; [|discriminate H].
  exists prm, t, (mp 5%Z), (mp 6%Z), a0, b0, a1, b1, R, R'. split; [exact Ht|]. split; [exact Eh|]. split; [exact Ra|]. split; [exact Rb|]. split; [|split; [apply other_consts_true, H|]].
  - cbn. intros K. injection K as K. discriminate K.
  - rewrite (proj1 (msr_verify_tr _ _ _ _ _ _ _ _ _ _ _ _ _ _ eq_refl Ra)), (proj1 (msr_verify_tr _ _ _ _ _ _ _ _ _ _ _ _ _ _ eq_refl Rb)). reflexivity.
Qed.
Print Assumptions C51_batched_refuted.

(** The tree: two trees with different roots, the same path, the same transcripts, different
    circuits. *)
Definition other_set : list TC0 := map k163 [21; 31; 42; 53; 64]%Z.
Theorem C51_root_refuted : exists (prm : SRParams TC0 TC1) t t' p (a0 b0 : VState TC0) (a1 b1 : VState TC1) R, from_set 6 2 2 prm toy_set None = TOk t /\ from_set 6 2 2 prm other_set None = TOk t' /\ t_height t = t_height t' /\
  sr_verify EE0 EE1 ec0 ec1 true 2 prm t p (v_new []) (v_new []) = Some (a0, a1, R) /\ sr_verify EE0 EE1 ec0 ec1 true 2 prm t' p (v_new []) (v_new []) = Some (b0, b1, R) /\
  v_cs a1 <> v_cs b1 /\ v_tr a0 = v_tr b0 /\ v_tr a1 = v_tr b1.
Proof.
  pose (p := mkPath (P0 := TC0) (P1 := TC1) (k163 7) [k139 5] [k163 11]).
  destruct (with_tree_spec 0 (fun prm t e o => match from_set 6 2 2 prm other_set None with TOk t' => (t_height t =? t_height t')%nat && negb (t_is_even t) && negb (t_is_even t') && match sr_verify EE0 EE1 ec0 ec1 true 2 prm t p (v_new []) (v_new []), sr_verify EE0 EE1 ec0 ec1 true 2 prm t' p (v_new []) (v_new []) with
    | Some (_, a1, _), Some (_, b1, _) => other_consts (v_cs a1) (v_cs b1) | _, _ => false end | _ => false end)%bool ltac:(vm_compute; reflexivity)) as (prm & t & e & o & H0 & H1 & Ht & Hw & H).
  destruct (from_set 6 2 2 prm other_set None) as [t'| |] eqn:Ht'; try discriminate H. apply andb_prop in H as [H K]. apply andb_prop in H as [H Ev']. apply andb_prop in H as [Eh Ev]. apply Nat.eqb_eq in Eh. apply Bool.negb_true_iff in Ev, Ev'.
  destruct (sr_verify EE0 EE1 ec0 ec1 true 2 prm t p (v_new []) (v_new [])) as [[[a0 a1] R]|] eqn:Ra; [|discriminate K].
  destruct (sr_verify EE0 EE1 ec0 ec1 true 2 prm t' p (v_new []) (v_new [])) as [[[b0 b1] R']|] eqn:Rb; [|discriminate K].
  assert (ER : forall t (x0 : VState TC0) (x1 : VState TC1) R, sr_verify EE0 EE1 ec0 ec1 true 2 prm t p (v_new []) (v_new []) = Some (x0, x1, R) -> R = pa_selected p).
  { intros t2 x0 x1 R2 Hr. unfold sr_verify in Hr. destruct (verification_commitments t2 p) as [p2|] eqn:Ec; [|discriminate Hr]. cbn [opt_bind] in Hr. destruct (_ && _)%bool; [discriminate Hr|].
    destruct (even_gadget _ _ _ _ _ _ _); [|discriminate Hr]. cbn [opt_bind] in Hr. destruct (odd_gadget _ _ _ _ _ _ _); [|discriminate Hr]. cbn [opt_bind] in Hr. apply Some_inj, pair_inj in Hr as [_ <-]. apply (commitments_shape _ _ _ Ec). }
  pose proof (ER _ _ _ _ Ra) as ->. pose proof (ER _ _ _ _ Rb) as ->.
  exists prm, t, t', p, a0, b0, a1, b1, (pa_selected p). split; [exact Ht|]. split; [exact Ht'|]. split; [exact Eh|]. split; [exact Ra|]. split; [exact Rb|]. split; [apply other_consts_true, K|].
  destruct (sr_verify_tr _ _ _ _ _ _ _ _ _ _ _ _ _ _ Ra) as (_ & A0 & A1), (sr_verify_tr _ _ _ _ _ _ _ _ _ _ _ _ _ _ Rb) as (_ & B0 & B1). rewrite A0, A1, B0, B1.
  destruct t as [n|n]; [discriminate Ev|]. destruct t' as [n'|n']; [discriminate Ev'|]. split; reflexivity.
Qed.
Print Assumptions C51_root_refuted.

(** Pours below an even root: nothing marks the end of the first path, so paths of two and four
    levels and paths of four and two levels give the same transcripts but different circuits (the
    verifier of pours does not check the height). *)
(* toy values, no code modelled *)
Definition pour_of (pk : Z) (path0 path1 : Path TC0 TC1) : Pour TC0 TC1 TC1 := mkPour (P0 := TC0) (P1 := TC1) (C := TC1) (toy_proof true) toy_odd_proof path0 path1 (k139 pk) (k139 12) (k163 3) (k163 4).
(* test data or vocabulary of statements, no code modelled *)
Definition short_long (pk : Z) : Pour TC0 TC1 TC1 := pour_of pk (mkPath (P0 := TC0) (P1 := TC1) (k163 7) [k139 5] []) (mkPath (P0 := TC0) (P1 := TC1) (k163 9) [k139 6; k139 8] [k163 11]).
(* test data or vocabulary of statements, no code modelled *)
Definition long_short (pk : Z) : Pour TC0 TC1 TC1 := pour_of pk (mkPath (P0 := TC0) (P1 := TC1) (k163 11) [k139 5; k139 6] [k163 7]) (mkPath (P0 := TC0) (P1 := TC1) (k163 9) [k139 8] []).
(* the circuits of [pour_verify] (coin.rs 490-574) before the proofs are looked at *)
Definition pour_states (prm : SRParams TC0 TC1) (t : CurveTree TC0 TC1) (po : Pour TC0 TC1 TC1) : option (VState TC0 * VState TC1) :=
  do p0 <- verification_commitments t (po_path0 po); do p1 <- verification_commitments t (po_path1 po);
  do a0 <- pour_even_circuit EE0 ec1 ec1 toy_sha true 2 prm t po p0 p1 (v_new toy_ro); do a1 <- pour_odd_circuit EE1 ec0 2 prm t p0 p1 (v_new toy_ro); Some (a0, a1).
Lemma pour_states_tr prm t po a0 a1 : pour_states prm t po = Some (a0, a1) -> v_tr a0 = v_tr (v_new (V := TC0) toy_ro) ++ pour_even_events EE0 ec1 t po /\ v_tr a1 = v_tr (v_new (V := TC1) toy_ro) ++ pour_odd_events EE1 ec0 t po.
Proof.
  unfold pour_states. destruct (verification_commitments t (po_path0 po)) as [p0|] eqn:H0; [|discriminate]. cbn [opt_bind]. destruct (verification_commitments t (po_path1 po)) as [p1|] eqn:H1; [|discriminate]. cbn [opt_bind].
  destruct (pour_even_circuit _ _ _ _ _ _ _ _ _ _ _ _) as [x0|] eqn:R0; [|discriminate]. cbn [opt_bind]. destruct (pour_odd_circuit _ _ _ _ _ _ _ _) as [x1|] eqn:R1; [|discriminate]. cbn [opt_bind]. intros H. apply Some_inj, pair_inj in H as [<- <-].
  split; [eapply pour_even_tr; eassumption|eapply pour_odd_tr; eassumption].
Qed.
(* toy tree, no code modelled *)
Definition small_set : list TC0 := map k163 [20; 31; 42]%Z.
(* test data or vocabulary of statements, no code modelled *)
Definition with_small (f : SRParams TC0 TC1 -> CurveTree TC0 TC1 -> bool) : bool :=
  match sl_new pos0 toy_pcg toy_delta, sl_new pos1 toy_pcg1 toy_delta1 with
  | Some a, Some b => match from_set 6 2 1 (mkSRP a b) small_set None with TOk t => f (mkSRP a b) t | _ => false end | _, _ => false end.
Lemma with_small_spec f : with_small f = true -> exists prm t, from_set 6 2 1 prm small_set None = TOk t /\ f prm t = true.
Proof.
  unfold with_small. destruct (sl_new pos0 toy_pcg toy_delta) as [a|]; [|discriminate]. destruct (sl_new pos1 toy_pcg1 toy_delta1) as [b|]; [|discriminate].
  destruct (from_set 6 2 1 (mkSRP a b) small_set None) as [t| |] eqn:Et; try discriminate. intros H. exists (mkSRP a b), t. auto.
Qed.
Theorem C51_pour_refuted : exists (prm : SRParams TC0 TC1) t po po' (a0 b0 : VState TC0) (a1 b1 : VState TC1), from_set 6 2 1 prm small_set None = TOk t /\ t_height t = 2%nat /\
  pour_states prm t po = Some (a0, a1) /\ pour_states prm t po' = Some (b0, b1) /\
  po_path0 po <> po_path0 po' /\ v_cs a0 <> v_cs b0 /\ v_tr a0 = v_tr b0 /\ v_tr a1 = v_tr b1.
Proof.
  destruct (with_small_spec (fun prm t => (t_height t =? 2)%nat && t_is_even t && match pour_states prm t (short_long 14), pour_states prm t (long_short 14) with Some (a0, _), Some (b0, _) => other_consts (v_cs a0) (v_cs b0) | _, _ => false end)%bool
    ltac:(vm_compute; reflexivity)) as (prm & t & Ht & H). apply andb_prop in H as [H K]. apply andb_prop in H as [Eh Ev]. apply Nat.eqb_eq in Eh.
  destruct (pour_states prm t (short_long 14)) as [[a0 a1]|] eqn:Ra; [|discriminate K]. destruct (pour_states prm t (long_short 14)) as [[b0 b1]|] eqn:Rb; [|discriminate K].
  exists prm, t, (short_long 14), (long_short 14), a0, b0, a1, b1. split; [exact Ht|]. split; [exact Eh|]. split; [exact Ra|]. split; [exact Rb|]. split; [discriminate|]. split; [apply other_consts_true, K|].
  apply pour_states_tr in Ra as [-> ->], Rb as [-> ->]. destruct t as [n|n]; [|discriminate Ev]. split; reflexivity.
Qed.
Print Assumptions C51_pour_refuted.
(** Two pours that differ in a public key only. *)
Theorem C51_keys_refuted : exists (prm : SRParams TC0 TC1) t po po' (a0 b0 : VState TC0) (a1 b1 : VState TC1), from_set 6 2 1 prm small_set None = TOk t /\
  pour_states prm t po = Some (a0, a1) /\ pour_states prm t po' = Some (b0, b1) /\
  po_pk0 po <> po_pk0 po' /\ v_cs a0 <> v_cs b0 /\ v_tr a0 = v_tr b0 /\ v_tr a1 = v_tr b1.
Proof.
  destruct (with_small_spec (fun prm t => t_is_even t && match pour_states prm t (short_long 14), pour_states prm t (short_long 15) with Some (a0, _), Some (b0, _) => other_consts (v_cs a0) (v_cs b0) | _, _ => false end)%bool
    ltac:(vm_compute; reflexivity)) as (prm & t & Ht & H). apply andb_prop in H as [Ev K].
  destruct (pour_states prm t (short_long 14)) as [[a0 a1]|] eqn:Ra; [|discriminate K]. destruct (pour_states prm t (short_long 15)) as [[b0 b1]|] eqn:Rb; [|discriminate K].
  exists prm, t, (short_long 14), (short_long 15), a0, b0, a1, b1. split; [exact Ht|]. split; [exact Ra|]. split; [exact Rb|]. split; [discriminate|]. split; [apply other_consts_true, K|].
  apply pour_states_tr in Ra as [-> ->], Rb as [-> ->]. split; reflexivity.
Qed.
Print Assumptions C51_keys_refuted.

(** ** The hypotheses are satisfiable *)
Lemma enc_fp_inj p : (pm p <= 65536)%Z -> injective (enc_fp p).
Proof.
  intros Hp x y H. unfold enc_fp in H. apply (f_equal le_value) in H. rewrite !le_value_bytes in H. pose proof (zv_range p x) as Hx. pose proof (zv_range p y) as Hy. change (256 ^ N.of_nat 2)%N with 65536%N in H. rewrite !N.mod_small in H by lia. apply fp_eq. lia.
Qed.
Lemma toy_inj : injective (enc_point EE0) /\ injective (enc_point EE1) /\ injective ec0 /\ injective ec1.
Proof. repeat split; apply enc_fp_inj; discriminate. Qed.
(* C51_path: two paths that the verifier of a tree of height 3 accepts as public inputs *)
Example C51_path_demo : exists (prm : SRParams TC0 TC1) t p p' r r', from_set 6 2 2 prm toy_set None = TOk t /\ t_height t = 3%nat /\ p <> p' /\
  sr_verify EE0 EE1 ec0 ec1 true 2 prm t p (v_new []) (v_new []) = Some r /\ sr_verify EE0 EE1 ec0 ec1 true 2 prm t p' (v_new []) (v_new []) = Some r'.
Proof.
  pose (pa := fun k => mkPath (P0 := TC0) (P1 := TC1) (k163 7) [k139 k] [k163 11]).
  destruct (with_tree_spec 0 (fun prm t e o => (t_height t =? 3)%nat && match sr_verify EE0 EE1 ec0 ec1 true 2 prm t (pa 5%Z) (v_new []) (v_new []), sr_verify EE0 EE1 ec0 ec1 true 2 prm t (pa 6%Z) (v_new []) (v_new []) with
    | Some _, Some _ => true | _, _ => false end)%bool ltac:(vm_compute; reflexivity)) as (prm & t & e & o & H0 & H1 & Ht & Hw & H).
  apply andb_prop in H as [Eh H]. apply Nat.eqb_eq in Eh.
  destruct (sr_verify EE0 EE1 ec0 ec1 true 2 prm t (pa 5%Z) (v_new []) (v_new [])) as [r|] eqn:Ra; [|discriminate H].
  destruct (sr_verify EE0 EE1 ec0 ec1 true 2 prm t (pa 6%Z) (v_new []) (v_new [])) as [r'|] eqn:Rb; [|discriminate H].
  exists prm, t, (pa 5%Z), (pa 6%Z), r, r'. repeat split; auto. intros K. discriminate K.
Qed.
(* C51_batched: the witnesses of [C51_batched_refuted].  C51_pour_partial: the pours of
   [C51_keys_refuted], whose first paths have the same length, and two different minted
   commitments. *)
Definition minted (po : Pour TC0 TC1 TC1) (k : Z) : Pour TC0 TC1 TC1 := mkPour (P0 := TC0) (P1 := TC1) (C := TC1) (po_even po) (po_odd po) (po_path0 po) (po_path1 po) (po_pk0 po) (po_pk1 po) (k163 k) (po_minted1 po).
Example C51_pour_demo : exists (prm : SRParams TC0 TC1) t a b, from_set 6 2 1 prm small_set None = TOk t /\ pour_states prm t (short_long 14) = Some a /\ pour_states prm t (minted (short_long 14) 8) = Some b /\ po_minted0 (short_long 14) <> po_minted0 (minted (short_long 14) 8).
Proof.
  destruct (with_small_spec (fun prm t => match pour_states prm t (short_long 14), pour_states prm t (minted (short_long 14) 8) with Some _, Some _ => true | _, _ => false end)%bool ltac:(vm_compute; reflexivity)) as (prm & t & Ht & H).
  destruct (pour_states prm t (short_long 14)) as [a|] eqn:Ra; [|discriminate H]. destruct (pour_states prm t (minted (short_long 14) 8)) as [b|] eqn:Rb; [|discriminate H].
  exists prm, t, a, b. repeat split; auto. discriminate.
Qed.
