(** * C66, C67: soundness of the R1CS verifier *)
From Verif Require Import SoundSpec SoundLift Forge ForgeProofs CSMore R1CSMain Toy PropsR1CS.
Local Open Scope F_scope.

(** ** C66: what an accepted proof guarantees

    The prover is algebraic: it knows the coefficients of all its points over the
    generators.  Unless one of the challenges falls into a set of few values fixed
    before it, an accepted proof either gives a non-trivial relation between the
    generators, or the assignment read off the commitments satisfies every linear
    constraint, and every gate up to the term [gate_defect]. *)
Theorem C66_extraction : forall (F : Field) (V : VSpace F) (N : nat) (t2 : VState (FreeV F (2 + (N + N)))) n1 AI1 AO1 SS1 AI2 AO2 SS2,
  unless_unlucky N t2 (fun y z T u x tx txb eb w Ls Rs us a b rr =>
    let pf := mkProof AI1 AO1 SS1 AI2 AO2 SS2 T tx txb eb (mkIPP Ls Rs a b) in
    forall (E : TrEnv V) dbg pc g t Gs Hs vt,
      let phi := free_eval (generators pc Gs Hs) in
      gens_wf g -> share_G g 0 N = Some Gs -> share_H g 0 N = Some Hs -> v_size t = n1 -> length Rs = length Ls ->
      next_power_of_two (v_size t2) = N ->
      all_challenges E (map_proof phi pf) t = Some (map_vstate phi t2, (y, z, u, x, w), us) ->
      r1cs_verify E dbg rr (map_proof phi pf) pc g t = Some (Ok tt) ->
      v_scalars_and_points E dbg rr (map_proof phi pf) t = Some (Ok vt) ->
      let c := combined N (vt_scalars vt) (all_points t2 pf) (vt_fixed vt) in
      let ext := extracted N n1 t2 AI1 AO1 AI2 AO2 in
      free_eval (generators pc Gs Hs) c = v0 /\
      (c <> v0 \/
       (Forall (fun lc => lc_val ext lc = 0) (v_cs t2) /\
        forall i, ext (MulL i) * ext (MulR i) - ext (MulO i) + gate_defect N n1 t2 AO1 i = 0))).
Proof. intros F V N t2 n1 AI1 AO1 SS1 AI2 AO2 SS2. exact (game_lifted (V := V) N t2 n1 AI1 AO1 SS1 AI2 AO2 SS2). Qed.
Print Assumptions C66_extraction.

Section Defect.
  Context {F : Field}.
  Add Field FFdef : (f_th F).

  (** Without coefficients on [H] in the vector commitments, only the last one can
      hide a violated gate, and only when their number is odd. *)
  Lemma defect_zero N n1 (t2 : VState (FreeV F (2 + (N + N)))) AO1 i :
    (forall cd k, In cd (v_vec t2) -> on_H N k (fst cd) = 0) ->
    (Nat.odd (length (v_vec t2)) = true -> (i < n1)%nat -> on_G N i (fst (nth (length (v_vec t2) - 1) (v_vec t2) (v0, 0%nat))) = 0) ->
    gate_defect N n1 t2 AO1 i = 0.
  Proof.
    intros HH Hlast. unfold gate_defect. destruct (Nat.ltb_spec i n1) as [Hi|]; [|reflexivity].
    set (m := length (v_vec t2)) in *.
    rewrite (fsum_zero m), (fsum_zero m); [ring| |].
    - intros j Hj. apply fsum_zero. intros k Hk. destruct (Nat.eqb _ _); [|reflexivity].
      rewrite (HH (nth k (v_vec t2) (v0, 0%nat)) i) by (apply nth_In; exact Hk). ring.
    - intros j Hj. destruct (Nat.eqb_spec (slot (op_degree_of m) j) 0) as [Hs|]; [|reflexivity].
      rewrite (HH (nth j (v_vec t2) (v0, 0%nat)) i) by (apply nth_In; exact Hj).
      apply slot_zero in Hs as [Ho ->]; [|exact Hj]. rewrite Hlast by assumption. ring.
  Qed.
  Lemma gate_of (a b c d : F) : a * b - c + d = 0 -> d = 0 -> c = a * b.
  Proof. intros H ->. symmetry. apply fsub_0_iff. rewrite <- H. ring. Qed.
  Lemma gate_forge_ok (a b v : F) : a * b - a * b + v * ((a * b - a * b) * finv v) = 0.
  Proof. ring. Qed.
  Lemma gate_forge_ne (a b c v : F) : v <> 0 -> a * b - c + v * ((c - a * b) * finv v) = 0.
  Proof. intros Hv. field. exact Hv. Qed.
End Defect.

(** In general the linear constraints hold, and every gate at whose position the
    last vector commitment has entry zero. *)
Theorem C66_sound_gates_partial : forall (F : Field) (V : VSpace F) (N : nat) (t2 : VState (FreeV F (2 + (N + N)))) n1 AI1 AO1 SS1 AI2 AO2 SS2,
  (forall cd i, In cd (v_vec t2) -> on_H N i (fst cd) = 0) ->
  unless_unlucky N t2 (fun y z T u x tx txb eb w Ls Rs us a b rr =>
    let pf := mkProof AI1 AO1 SS1 AI2 AO2 SS2 T tx txb eb (mkIPP Ls Rs a b) in
    forall (E : TrEnv V) dbg pc g t Gs Hs vt,
      let phi := free_eval (generators pc Gs Hs) in
      gens_wf g -> share_G g 0 N = Some Gs -> share_H g 0 N = Some Hs -> v_size t = n1 -> length Rs = length Ls ->
      next_power_of_two (v_size t2) = N ->
      all_challenges E (map_proof phi pf) t = Some (map_vstate phi t2, (y, z, u, x, w), us) ->
      r1cs_verify E dbg rr (map_proof phi pf) pc g t = Some (Ok tt) ->
      v_scalars_and_points E dbg rr (map_proof phi pf) t = Some (Ok vt) ->
      let c := combined N (vt_scalars vt) (all_points t2 pf) (vt_fixed vt) in
      let ext := extracted N n1 t2 AI1 AO1 AI2 AO2 in
      (c <> v0 /\ free_eval (generators pc Gs Hs) c = v0) \/
      (Forall (fun lc => lc_val ext lc = 0) (v_cs t2) /\
       forall i, (i < n1)%nat /\ Nat.odd (length (v_vec t2)) = true /\ ext (VectorCommit (length (v_vec t2) - 1) i) <> 0 \/
                 ext (MulO i) = ext (MulL i) * ext (MulR i))).
Proof.
  intros F V N t2 n1 AI1 AO1 SS1 AI2 AO2 SS2 HH. eapply unlucky_mono; [|apply (game_lifted (V := V) N t2 n1 AI1 AO1 SS1 AI2 AO2 SS2)]. cbv beta zeta.
  intros y z T u x tx txb eb w Ls Rs us a b rr Hg E dbg pc g t Gs Hs vt Hw HGs HHs Hn HR HN Hch Hver Hvt.
  destruct (Hg E dbg pc g t Gs Hs vt Hw HGs HHs Hn HR HN Hch Hver Hvt) as (H0 & [Hc|[Hl Hgt]]).
  - left. split; [exact Hc|exact H0].
  - right. split; [exact Hl|]. intros i. cbn [extracted].
    destruct (f_eq_dec (on_G N i (fst (nth (length (v_vec t2) - 1) (v_vec t2) (v0, 0%nat)))) 0) as [Hz|Hz].
    { right. apply (gate_of _ _ _ _ (Hgt i)). apply defect_zero; [exact HH|]. intros _ _. exact Hz. }
    destruct (Nat.lt_ge_cases i n1) as [Hi|Hi]; [|right; apply (gate_of _ _ _ _ (Hgt i)); apply defect_zero; [exact HH|intros _ H; lia]].
    destruct (Nat.odd (length (v_vec t2))) eqn:Ho; [left; auto|right]. apply (gate_of _ _ _ _ (Hgt i)). apply defect_zero; [exact HH|]. intros H. rewrite Ho in H. discriminate H.
Qed.
Print Assumptions C66_sound_gates_partial.

(** When the number of vector commitments is even and they have no coefficients on
    [H], as the honest ones and in particular when there are none, the extracted
    assignment satisfies the circuit. *)
Theorem C66_sound_even_partial : forall (F : Field) (V : VSpace F) (N : nat) (t2 : VState (FreeV F (2 + (N + N)))) n1 AI1 AO1 SS1 AI2 AO2 SS2,
  Nat.even (length (v_vec t2)) = true -> (forall cd i, In cd (v_vec t2) -> on_H N i (fst cd) = 0) ->
  unless_unlucky N t2 (fun y z T u x tx txb eb w Ls Rs us a b rr =>
    let pf := mkProof AI1 AO1 SS1 AI2 AO2 SS2 T tx txb eb (mkIPP Ls Rs a b) in
    forall (E : TrEnv V) dbg pc g t Gs Hs vt,
      let phi := free_eval (generators pc Gs Hs) in
      gens_wf g -> share_G g 0 N = Some Gs -> share_H g 0 N = Some Hs -> v_size t = n1 -> length Rs = length Ls ->
      next_power_of_two (v_size t2) = N ->
      all_challenges E (map_proof phi pf) t = Some (map_vstate phi t2, (y, z, u, x, w), us) ->
      r1cs_verify E dbg rr (map_proof phi pf) pc g t = Some (Ok tt) ->
      v_scalars_and_points E dbg rr (map_proof phi pf) t = Some (Ok vt) ->
      let c := combined N (vt_scalars vt) (all_points t2 pf) (vt_fixed vt) in
      (c <> v0 /\ free_eval (generators pc Gs Hs) c = v0) \/
      satisfies (extracted N n1 t2 AI1 AO1 AI2 AO2) (v_cs t2)).
Proof.
  intros F V N t2 n1 AI1 AO1 SS1 AI2 AO2 SS2 Hev HH. eapply unlucky_mono; [|apply (game_lifted (V := V) N t2 n1 AI1 AO1 SS1 AI2 AO2 SS2)]. cbv beta zeta.
  intros y z T u x tx txb eb w Ls Rs us a b rr Hg E dbg pc g t Gs Hs vt Hw HGs HHs Hn HR HN Hch Hver Hvt.
  destruct (Hg E dbg pc g t Gs Hs vt Hw HGs HHs Hn HR HN Hch Hver Hvt) as (H0 & [Hc|[Hl Hgt]]).
  - left. split; [exact Hc|exact H0].
  - right. split; [reflexivity|]. split; [|exact Hl]. intros i. apply (gate_of _ _ _ _ (Hgt i)).
    apply defect_zero; [exact HH|]. intros Ho. rewrite <- Nat.negb_even, Hev in Ho. discriminate Ho.
Qed.
Print Assumptions C66_sound_even_partial.

(** ** C67: gates can be violated *)

(** With an odd number of vector commitments, every assignment that satisfies the
    linear constraints, and those gates at whose position the last committed vector
    is zero, has an accepted proof: the other gates need not hold.  The commitments
    are honest, and the circuit and the generators are arbitrary. *)
Theorem C67_gates_forgeable : forall (F : Field) (V : VSpace F) (E : TrEnv V) pc g tr s t (aL aR aO : list F),
  session E pc g tr s t -> v_def t = [] -> gens_wf g -> (gens_capacity g < 2 ^ 32)%nat ->
  Nat.odd (length (p_vec s)) = true ->
  length aL = length (p_aL s) -> length aR = length aL -> length aO = length aL ->
  let s' := p_set_wires s aL aR aO in
  Forall (fun lc => lc_val (p_asg s') lc = 0) (p_cs s) ->
  (forall i, p_asg s' (MulO i) = p_asg s' (MulL i) * p_asg s' (MulR i) \/ p_asg s' (VectorCommit (length (p_vec s) - 1) i) <> 0) ->
  exists oR, length oR = p_size s /\ forall rnd pf, forge E rnd pc g s' oR = Some pf ->
    Forall (fun P => P <> v0) (validated_points (op_degree_of (length (p_vec s))) pf) ->
    forall dbg rr, r1cs_verify E dbg rr pf pc g t = Some (Ok tt).
Proof.
  intros F V E pc g tr s t aL aR aO Hs Hd Hw Hc Hodd LL LR LO s' Hlin Hgate.
  destruct (session_agree E pc g tr s t Hs) as [_ Ha].
  set (vl := nth (length (p_vec s) - 1) (map snd (p_vec s)) []).
  exists (map (fun i => (nth i aO 0 - nth i aL 0 * nth i aR 0) * finv (nth i vl 0)) (seq 0 (p_size s))).
  split; [rewrite map_length, seq_length; reflexivity|]. intros rnd pf Hf Hnz dbg rr.
  assert (Ha' : agree pc g s' t) by (destruct Ha as [A1 A2 A3 A4 A5 A6 A7 A8 A9]; constructor; cbn; auto; congruence).
  assert (Hsz : p_size s' = p_size s) by (unfold p_size, s'; cbn [p_set_wires p_vec p_aL]; rewrite LL; reflexivity).
  eapply (forge_accepts E pc g dbg rr rnd s' t); try eassumption.
  - rewrite map_length, seq_length. symmetry. exact Hsz.
  - rewrite Hsz. intros i Hi. rewrite nth_map_seq by exact Hi. change (p_vec s') with (p_vec s). fold vl.
    change (p_aL s') with aL. change (p_aR s') with aR. change (p_aO s') with aO.
    assert (Hn : forall (l : list F), match nth_error l i with Some x => x | None => 0 end = nth i l 0).
    { intros l. destruct (nth_error l i) eqn:En; [symmetry; apply nth_error_nth; exact En|]. symmetry. apply nth_overflow. apply nth_error_None. exact En. }
    specialize (Hgate i). unfold p_asg in Hgate. cbn [p_var s' p_set_wires p_aL p_aR p_aO p_vec] in Hgate. rewrite !Hn in Hgate.
    assert (Hv : match (match nth_error (p_vec s) (length (p_vec s) - 1) with Some (_, l) => nth_error l i | None => None end) with Some x => x | None => 0 end = nth i vl 0).
    { unfold vl. destruct (nth_error (p_vec s) (length (p_vec s) - 1)) as [[b l]|] eqn:En.
      - rewrite Hn. f_equal. rewrite (nth_map_in snd _ _ (0, [])) by (apply nth_error_Some; congruence). rewrite (nth_error_nth _ _ _ En). reflexivity.
      - apply nth_error_None in En. rewrite (nth_overflow (map snd _)) by (rewrite map_length; exact En). destruct i; reflexivity. }
    rewrite Hv in Hgate. destruct Hgate as [He|Hne].
    + rewrite He. apply gate_forge_ok.
    + apply gate_forge_ne. exact Hne.
Qed.
Print Assumptions C67_gates_forgeable.

(** ** Concrete instances

    Points are their coefficients over six independent generators [B], [B~], [G_0],
    [G_1], [H_0], [H_1]. *)
Section Six.
  Context {F : Field}.
  Add Field FFsix : (f_th F).
  (* test data, no code modelled *)
  Definition unit6 (k : nat) : FreeV F 6 := free_mk (fun i => if Nat.eqb i k then 1 else 0).
  Lemma units_id (a : FreeV F 6) : msm (proj1_sig a) [unit6 0; unit6 1; unit6 2; unit6 3; unit6 4; unit6 5] = a.
  Proof.
    destruct a as [l Hl]. apply coord_ext. intros k Hk. pose proof (proj1 (Nat.eqb_eq _ _) Hl) as Hl'.
    do 6 (destruct l as [|? l]; [discriminate Hl'|]). destruct l; [|discriminate Hl']. cbn [proj1_sig msm].
    do 6 (destruct k as [|k]; [cbn [vadd vsmul v0 FreeV]; rewrite !coord_mk by lia; unfold unit6; rewrite ?coord_mk by lia; cbn [Nat.eqb coord proj1_sig nth]; ring|]). lia.
  Qed.
  Lemma un_arith (a b c o : F) : 1 * a + 0 = 0 -> 1 * c + ((- (1)) * o + 0) = 0 -> c = a * b -> o = 1 -> False.
  Proof.
    intros Ha H -> ->. assert (a = 0) as -> by (rewrite <- Ha; ring). apply (f1_neq_0 (F := F)).
    transitivity (- (1 * (0 * b) + ((- (1)) * 1 + 0))); [ring|rewrite H; ring].
  Qed.
End Six.
(* test data, no code modelled *)
Definition W6 : VSpace F101 := FreeV F101 6.
(* test data or vocabulary of statements, no code modelled *)
Definition E6 : TrEnv W6 := mkTrEnv (V := W6) (fun a => concat (map (enc_fp PM101) (proj1_sig a))) (enc_fp PM101) (challenge_bytes E101) (sha3_256 E101) (from_random_bytes E101).
(* test data or vocabulary of statements, no code modelled *)
Definition pc6 : PedersenGens W6 := mkPC (V := W6) (unit6 0) (unit6 1).
(* test data or vocabulary of statements, no code modelled *)
Definition g6 : BPGens W6 := mkBP (V := W6) 2 1 [[unit6 2; unit6 3]] [[unit6 4; unit6 5]].
(* test data or vocabulary of statements, no code modelled *)
Definition gens6 : list W6 := generators pc6 [unit6 2; unit6 3] [unit6 4; unit6 5].
(* test data or vocabulary of statements, no code modelled *)
Definition rnd6 : PRand F101 := mkRand (z101 11) (z101 12) (z101 13) (fun i => z101 (20 + Z.of_nat i)) (fun i => z101 (30 + Z.of_nat i))
   (z101 1) (z101 2) (z101 3) (fun i => z101 (40 + Z.of_nat i)) (fun i => z101 (50 + Z.of_nat i)) (fun i => z101 (60 + Z.of_nat i)).

Lemma gens6_id (a : FreeV F101 6) : free_eval (V := W6) gens6 a = a.
Proof. exact (units_id a). Qed.
Lemma gens_wf6 : gens_wf g6 /\ share_G g6 0 2 = Some [unit6 2; unit6 3] /\ share_H g6 0 2 = Some [unit6 4; unit6 5].
Proof. split; [|split; reflexivity]. exists [unit6 2; unit6 3], [unit6 4; unit6 5]. repeat split. Qed.

(** One committed vector (3, 4), one gate [a * b = c], constraints [a = 0] and
    [c = 1]: no assignment satisfies this circuit.  An honest session of prover and
    verifier and the proof of the cheating prover, with wires [0 * 0 = 1]. *)
(* test data, no code modelled *)
Definition unsat : Prog F101 unit := PAllocMul (Some (z101 0, z101 0)) (fun r => match r with
   | Ok (a, b, c) => PConstrain (lc_var a) (PConstrain (lc_var c ++ [(One, - (z101 1))]) (PRet tt)) | Err _ => PRet tt end).
(* test data or vocabulary of statements, no code modelled *)
Definition un_c := p_commit_vec E6 pc6 g6 (p_new []) [z101 3; z101 4] (z101 9).
(* test data or vocabulary of statements, no code modelled *)
Definition un_d : PState F101 * (W6 * list Var) := (p_new [], (v0, [])).
(* test data or vocabulary of statements, no code modelled *)
Definition un_p := prun E6 unsat (fst (the un_d un_c)).
(* test data or vocabulary of statements, no code modelled *)
Definition un_v := vrun E6 unsat (fst (v_commit_vec E6 (v_new []) 2 (fst (snd (the un_d un_c))))).
(* test data or vocabulary of statements, no code modelled *)
Definition un_s : PState F101 := fst (the (p_new [], tt) un_p).
(* test data or vocabulary of statements, no code modelled *)
Definition un_t : VState W6 := fst (the (v_new [], tt) un_v).
Notation un_forged := (forge E6 rnd6 pc6 g6 (p_set_wires un_s [z101 0] [z101 0] [z101 1]) [finv (z101 3); z101 0]).
Lemma un_session : session E6 pc6 g6 [] un_s un_t.
Proof.
  assert (H1 : is_some un_c = true) by (vm_compute; reflexivity). assert (H2 : is_some un_p = true) by (vm_compute; reflexivity). assert (H3 : is_some un_v = true) by (vm_compute; reflexivity).
  apply (the_some un_d) in H1. apply (the_some (p_new [], tt)) in H2. apply (the_some (v_new [], tt)) in H3.
  destruct (the un_d un_c) as [s0 [c us]] eqn:E0. destruct (the (p_new [], tt) un_p) as [s1 x1] eqn:E1. destruct (the (v_new [], tt) un_v) as [t1 x2] eqn:E2.
  unfold un_s, un_t. rewrite E1, E2. eapply (ses_gadget E6 pc6 g6 [] unit unsat unsat).
  - eapply (ses_commit_vec E6 pc6 g6 [] _ _ [z101 3; z101 4]); [apply ses_new|exact H1].
  - constructor. intros [[l r] o]. repeat constructor.
  - unfold un_p in H2. rewrite E0 in H2. exact H2.
  - unfold un_v in H3. rewrite E0 in H3. exact H3.
Qed.
Lemma un_shape : v_cs un_t = [lc_var (MulL 0); lc_var (MulO 0) ++ [(One, - (z101 1))]] /\ p_cs un_s = v_cs un_t /\ v_def un_t = [] /\
  length (p_aL un_s) = 1%nat /\ p_vec un_s = [(z101 9, [z101 3; z101 4])].
Proof. repeat split; reflexivity. Qed.
Lemma un_unsat (w : Var -> F101) : ~ satisfies w (v_cs un_t).
Proof.
  destruct un_shape as (-> & _). intros (H1 & Hg & Hl). inversion Hl as [|c0 l0 Ha Hl' E0]. inversion Hl' as [|c1 l1 Hc _ E1]. clear Hl Hl' E0 E1.
  cbn [lc_val lc_var app] in Ha, Hc. apply (un_arith (w (MulL 0)) (w (MulR 0)) (w (MulO 0)) (w One)); auto.
Qed.

Lemma un_accept_gen (s : PState F101) (t : VState W6) pf dbg rr : agree pc6 g6 s t ->
  p_cs s = [lc_var (MulL 0); lc_var (MulO 0) ++ [(One, - (z101 1))]] -> v_def t = [] -> length (p_aL s) = 1%nat -> p_vec s = [(z101 9, [z101 3; z101 4])] ->
  forge E6 rnd6 pc6 g6 (p_set_wires s [z101 0] [z101 0] [z101 1]) [finv (z101 3); z101 0] = Some pf ->
  Forall (fun P => P <> v0) (validated_points (op_degree_of 1) pf) -> r1cs_verify E6 dbg rr pf pc6 g6 t = Some (Ok tt).
Proof.
  intros Ha Hcs Hd HL Hv Hf Hnz.
  apply (forge_accepts E6 pc6 g6 dbg rr rnd6 (p_set_wires s [z101 0] [z101 0] [z101 1]) t [finv (z101 3); z101 0] pf); try assumption.
  - destruct Ha as [A1 A2 A3 A4 A5 A6 A7 A8 A9]. constructor; try assumption. cbn [p_set_wires p_aL length]. congruence.
  - reflexivity.
  - reflexivity.
  - apply gens_wf6.
  - change (gens_capacity g6) with 2%nat. apply (Nat.lt_le_trans _ (2 ^ 2)); [cbn; lia|apply Nat.pow_le_mono_r; lia].
  - cbn [p_set_wires p_vec]. rewrite Hv. reflexivity.
  - unfold p_size. cbn [p_set_wires p_vec]. rewrite Hv. reflexivity.
  - cbn [p_set_wires p_cs]. rewrite Hcs. repeat constructor; apply feqb_true; vm_compute; reflexivity.
  - unfold p_size. cbn [p_set_wires p_vec p_aL p_aR p_aO]. rewrite Hv. intros i Hi. cbn in Hi. destruct i as [|[|i]]; [| |lia]; apply feqb_true; vm_compute; reflexivity.
  - cbn [p_set_wires p_vec]. rewrite Hv. exact Hnz.
Qed.
Lemma un_accepted : exists pf, un_forged = Some pf /\ forall dbg rr, r1cs_verify E6 dbg rr pf pc6 g6 un_t = Some (Ok tt).
Proof.
  assert (H : match un_forged with Some pf => forallb (fun P => negb (veqb P v0)) (validated_points (op_degree_of 1) pf) | None => false end = true) by (vm_compute; reflexivity).
  destruct un_forged as [pf|] eqn:Ef; [|discriminate H]. exists pf. split; [reflexivity|]. intros dbg rr.
  destruct un_shape as (S1 & S2 & S3 & S4 & S5). destruct (session_agree _ _ _ _ _ _ un_session) as [_ Ha].
  pose proof (un_accept_gen un_s un_t pf dbg rr Ha (eq_trans S2 S1)) as Q.
  specialize (Q S3). specialize (Q S4). specialize (Q S5). specialize (Q Ef). apply Q.
  apply Forall_forall. intros P HP. rewrite forallb_forall in H. specialize (H P HP). apply Bool.negb_true_iff in H. intros ->. rewrite veqb_refl in H. discriminate H.
Qed.

(** The verifier accepts a proof for a circuit that no assignment satisfies.  The
    vector commitment is honest and the generators are independent. *)
Theorem C66_sound_refuted : exists (F : Field) (V : VSpace F) (E : TrEnv V) pc g tr s t Gs Hs pf,
  session E pc g tr s t /\ gens_wf g /\ share_G g 0 2 = Some Gs /\ share_H g 0 2 = Some Hs /\
  (forall c : FreeV F 6, free_eval (generators pc Gs Hs) c = v0 -> c = v0) /\
  (forall w, ~ satisfies w (v_cs t)) /\ v_def t = [] /\
  forall dbg rr, r1cs_verify E dbg rr pf pc g t = Some (Ok tt).
Proof.
  destruct un_accepted as (pf & _ & Hv). exists F101, W6, E6, pc6, g6, [], un_s, un_t, [unit6 2; unit6 3], [unit6 4; unit6 5], pf.
  split; [exact un_session|]. split; [apply gens_wf6|]. split; [reflexivity|]. split; [reflexivity|].
  split; [intros c Hc; rewrite <- (gens6_id c); exact Hc|]. split; [exact un_unsat|]. split; [apply un_shape|exact Hv].
Qed.
Print Assumptions C66_sound_refuted.

(** The hypotheses of C67 hold for this circuit and the wires [0 * 0 = 1], and the
    cheating prover succeeds. *)
Example C67_demo : session E6 pc6 g6 [] un_s un_t /\ v_def un_t = [] /\ gens_wf g6 /\ Nat.odd (length (p_vec un_s)) = true /\
  let s' := p_set_wires un_s [z101 0] [z101 0] [z101 1] in
  Forall (fun lc => lc_val (p_asg s') lc = 0) (p_cs un_s) /\
  (forall i, p_asg s' (MulO i) = p_asg s' (MulL i) * p_asg s' (MulR i) \/ p_asg s' (VectorCommit (length (p_vec un_s) - 1) i) <> 0) /\
  exists pf, un_forged = Some pf.
Proof.
  destruct un_shape as (S1 & S2 & S3 & S4 & S5). split; [exact un_session|]. split; [exact S3|]. split; [apply gens_wf6|]. split; [rewrite S5; reflexivity|].
  split; [|split].
  - rewrite S2, S1. repeat constructor; apply feqb_true; vm_compute; reflexivity.
  - rewrite S5. intros [|i]; [right|left].
    + apply feqb_false. vm_compute. reflexivity.
    + apply feqb_true. destruct i; vm_compute; reflexivity.
  - destruct un_accepted as (pf & Hf & _). exists pf. exact Hf.
Qed.
(** The honest prover's proof for the same circuit is rejected. *)
(* test data, no code modelled *)
Definition un_honest_rejected : bool := Eval vm_compute in
  match r1cs_prove E6 false rnd6 pc6 g6 un_s with
  | Some (Ok (pf, _)) => match r1cs_verify E6 true (z101 7) pf pc6 g6 un_t with Some (Err _) => true | _ => false end | _ => false end.
Example C67_honest_test : un_honest_rejected = true.
Proof. reflexivity. Qed.

(** Two committed vectors (3, 4) and (5, 1), one gate [a * b = c] on their first
    entries, constraint [c = 15]. *)
(* test data, no code modelled *)
Definition prod2 : Prog F101 unit := PMul (lc_var (VectorCommit 0 0)) (lc_var (VectorCommit 1 0)) (fun '(_, _, c) => PConstrain (lc_var c ++ [(One, - (z101 15))]) (PRet tt)).
(* test data or vocabulary of statements, no code modelled *)
Definition ev_c := match p_commit_vec E6 pc6 g6 (p_new []) [z101 3; z101 4] (z101 9) with
  | Some (s, (c0, _)) => match p_commit_vec E6 pc6 g6 s [z101 5; z101 1] (z101 8) with Some (s, (c1, _)) => Some (s, (c0, c1)) | None => None end | None => None end.
(* test data or vocabulary of statements, no code modelled *)
Definition ev_t : option (VState W6 * unit) := match ev_c with
  | Some (_, (c0, c1)) => vrun E6 prod2 (fst (v_commit_vec E6 (fst (v_commit_vec E6 (v_new []) 2 c0)) 2 c1)) | None => None end.
(* test data or vocabulary of statements, no code modelled *)
Definition ev_pf : option (R1CSProof W6) := match ev_c with
  | Some (s, _) => match prun E6 prod2 s with Some (s, _) => ok_proof (r1cs_prove E6 true rnd6 pc6 g6 s) | None => None end | None => None end.
(** The honest prover's proof meets all hypotheses of [C66_sound_even_partial] except
    that the challenges are lucky; the prover's coefficients are its points. *)
Example C66_demo : exists pf t t2 y z u x w us, ev_pf = Some pf /\
  let phi := free_eval (V := W6) gens6 in
  gens_wf g6 /\ next_power_of_two (v_size t2) = 2%nat /\ length (ipp_R (pipp pf)) = length (ipp_L (pipp pf)) /\
  Nat.even (length (v_vec t2)) = true /\ length (v_vec t2) = 2%nat /\ (forall cd i, In cd (v_vec t2) -> on_H 2 i (fst cd) = 0) /\
  all_challenges E6 (map_proof phi pf) t = Some (map_vstate phi t2, (y, z, u, x, w), us) /\
  r1cs_verify E6 true (z101 7) (map_proof phi pf) pc6 g6 t = Some (Ok tt).
Proof.
  assert (H : match ev_pf, ev_t with Some pf, Some (t, _) => match all_challenges E6 pf t with
      | Some (t2, (y, z, u, x, w), us) => (next_power_of_two (v_size t2) =? 2)%nat && (length (ipp_R (pipp pf)) =? length (ipp_L (pipp pf)))%nat && (length (v_vec t2) =? 2)%nat &&
          forallb (fun cd => forallb (fun i => feqb (on_H 2 i (fst cd)) 0) (seq 0 2)) (v_vec t2) && match r1cs_verify E6 true (z101 7) pf pc6 g6 t with Some (Ok tt) => true | _ => false end
      | None => false end | _, _ => false end = true) by (vm_compute; reflexivity).
  destruct ev_pf as [pf|]; [|discriminate H]. destruct ev_t as [[t []]|]; [|discriminate H].
  destruct (all_challenges E6 pf t) as [[[t2 [[[[y z] u] x] w]] us]|] eqn:Ec; [|discriminate H].
  apply andb_prop in H as [H H5]. apply andb_prop in H as [H H4]. apply andb_prop in H as [H H3]. apply andb_prop in H as [H1 H2].
  apply Nat.eqb_eq in H1, H2, H3.
  assert (Hpf : map_proof (free_eval (V := W6) gens6) pf = pf).
  { assert (Hl : forall l : list W6, map (free_eval (V := W6) gens6) l = l) by (intros l; rewrite <- (map_id l) at 2; apply map_ext; apply gens6_id).
    destruct pf as [p1 p2 p3 p4 p5 p6 T tx txb eb [Ls Rs a b]]. unfold map_proof. cbn [A_I1 A_O1 S1 A_I2 A_O2 S2 pT pt_x pt_x_blinding pe_blinding pipp ipp_L ipp_R ipp_a ipp_b].
    rewrite !gens6_id, !Hl. reflexivity. }
  assert (Ht : map_vstate (free_eval (V := W6) gens6) t2 = t2).
  { assert (Hl : forall l : list W6, map (free_eval (V := W6) gens6) l = l) by (intros l; rewrite <- (map_id l) at 2; apply map_ext; apply gens6_id).
    destruct t2 as [q1 q2 q3 q4 q5 q6 q7]. unfold map_vstate. cbn [v_tr v_cs v_vec v_num v_V v_def v_pend]. rewrite Hl. f_equal.
    rewrite <- (map_id q3) at 2. apply map_ext. intros [c d]. cbn [fst snd]. rewrite gens6_id. reflexivity. }
  exists pf, t, t2, y, z, u, x, w, us. split; [reflexivity|]. cbv zeta. rewrite Hpf, Ht. split; [apply gens_wf6|]. split; [exact H1|]. split; [exact H2|].
  split; [exact (f_equal Nat.even H3)|]. split; [exact H3|]. split.
  - intros cd i Hcd. unfold on_H. destruct (Nat.ltb_spec i 2) as [Hi|]; [|reflexivity]. rewrite forallb_forall in H4. specialize (H4 cd Hcd). rewrite forallb_forall in H4.
    specialize (H4 i ltac:(apply in_seq; lia)). apply feqb_true in H4. unfold on_H in H4. destruct (Nat.ltb_spec i 2); [exact H4|lia].
  - split; [exact Ec|]. destruct (r1cs_verify _ _ _ _ _ _ _) as [[[]|]|]; try discriminate H5. reflexivity.
Qed.
