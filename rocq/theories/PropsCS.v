(** * Properties of the constraint-system front end (C01-C05) *)
From Verif Require Import CSSpec CSProofs Lockstep CSLogic FlatProofs CSMore UtilProofs Toy.
Local Open Scope F_scope.

(** ** C01: prover and verifier build the same circuit from the same gadget *)

Theorem C01_lockstep : forall (F : Field) (V : VSpace F) (E : TrEnv V) pc g tr A (p p' : Prog F A) s t s' a,
  session E pc g tr s t -> same_gadget p p' -> prun E p s = Some (s', a) ->
  exists t', vrun E p' t = Some (t', a) /\
    p_tr s' = v_tr t' /\ p_cs s' = v_cs t' /\ length (p_aL s') = v_num t' /\ p_pend s' = v_pend t' /\
    p_metrics s' = v_metrics t' /\
    v_V t' = zipw (pc_commit pc) (p_v s') (p_vb s') /\
    v_vec t' = map (fun bv => (vec_commitment pc g (fst bv) (snd bv), length (snd bv))) (p_vec s').
Proof.
  intros F V E pc g tr A p p' s t s' a Hs Hsg Hp. destruct (session_agree E pc g tr s t Hs) as [Hg Ha].
  destruct (lockstep_prun E pc g p p' s t s' a Hsg Hg Ha Hp) as (t' & Ht & [A1 A2 A3 A4 A5 A6 A7 A8 A9]).
  exists t'. repeat (split; [assumption|]).
  split; [unfold p_metrics, v_metrics; rewrite A2, A3, (Forall2_len A5); reflexivity|]. split; assumption.
Qed.

(** Phase two keeps prover and verifier in step, too. *)
Theorem C01_lockstep_phase2 : forall (F : Field) (V : VSpace F) (E : TrEnv V) pc g tr s t s',
  session E pc g tr s t -> p_create_randomized E s = Some (Ok s') ->
  exists t', v_create_randomized E t = Some (Ok t') /\
    p_tr s' = v_tr t' /\ p_cs s' = v_cs t' /\ length (p_aL s') = v_num t'.
Proof.
  intros F V E pc g tr s t s' Hs Hp. destruct (session_agree E pc g tr s t Hs) as [Hg Ha].
  destruct (lockstep_create_randomized E pc g s t s' Hg Ha Hp) as (t' & Ht & [A1 A2 A3 A4 A5 A6 A7 A8 A9]).
  exists t'. auto.
Qed.

(** Commitments return the same variables on both sides. *)
Theorem C01_commit_vars : forall (F : Field) (V : VSpace F) (E : TrEnv V) pc g tr s t,
  session E pc g tr s t ->
  (forall v vb s' c u, p_commit E pc s v vb = (s', (c, u)) -> snd (v_commit E t c) = u) /\
  (forall v vb s' c us, p_commit_vec E pc g s v vb = Some (s', (c, us)) -> snd (v_commit_vec E t (length v) c) = us).
Proof.
  intros F V E pc g tr s t Hs. destruct (session_agree E pc g tr s t Hs) as [Hg Ha]. split.
  - intros v vb s' c u Hp. destruct (v_commit E t c) as [t' u'] eqn:Hv. symmetry.
    eapply lockstep_commit; eassumption.
  - intros v vb s' c us Hp. destruct (v_commit_vec E t (length v) c) as [t' us'] eqn:Hv. symmetry.
    eapply lockstep_commit_vec; eassumption.
Qed.
Print Assumptions C01_lockstep.
Print Assumptions C01_lockstep_phase2.
Print Assumptions C01_commit_vars.

(** A gadget that half-allocates, multiplies, constrains, writes to the
    transcript, asks for metrics and registers a phase-two callback. *)
Definition demo_gadget (wit : option F101) (x : Var) : Prog F101 Var :=
  PAlloc wit (fun r => match r with
    | Ok a => PMul (lc_var a) (lc_add (lc_var x) (lc_const (z101 3))) (fun '(l, r, o) =>
        PConstrain (lc_sub (lc_var o) (lc_mul (lc_var a) (z101 10)))
          (PAppend "demo" [1%N]
            (PMetrics (fun m => if Nat.ltb 0 (multipliers m) then
              PSpecify (PChallenge "ch" (fun c => PMul (lc_var a) (lc_const c) (fun _ => PRet (Ok tt)))) (PRet o)
              else PPanic))))
    | Err _ => PPanic
    end).
Example C01_demo_same x : same_gadget (demo_gadget (Some (z101 4)) x) (demo_gadget None x).
Proof.
  constructor. intros v. constructor. intros [[l r] o]. repeat constructor. intros m.
  destruct (0 <? multipliers m); repeat constructor.
Qed.
(** A session with a vector commitment of (7, 8) and the gadget on its first
    entry; both runs succeed, so the theorem's hypotheses are met. *)
Definition demo_p1 := match p_commit_vec E101 pc101 g101 (p_new []) [z101 7; z101 8] (z101 9) with
                      | Some (s, _) => s | None => p_new [] end.
Example C01_demo_session : exists t, session E101 pc101 g101 [] demo_p1 t.
Proof.
  destruct (is_some_ex (p_commit_vec E101 pc101 g101 (p_new []) [z101 7; z101 8] (z101 9)) ltac:(vm_compute; reflexivity))
    as [[s [c us]] H].
  eexists. unfold demo_p1. rewrite H.
  eapply (ses_commit_vec E101 pc101 g101 [] _ _ [z101 7; z101 8] (z101 9)); [apply ses_new|exact H].
Qed.
Example C01_demo_run :
  option_map (fun sa => (map i101 (p_aL (fst sa)), map i101 (p_aR (fst sa)), length (p_cs (fst sa)), snd sa))
    (prun E101 (demo_gadget (Some (z101 4)) (VectorCommit 0 0)) demo_p1)
  = Some ([4; 4], [0; 10], 3%nat, MulO 1)%Z.
Proof. vm_compute. reflexivity. Qed.

(** ** C02: the prover's wires satisfy every gate, variables are stable *)

Theorem C02_gates : forall (F : Field) (V : VSpace F) (E : TrEnv V) pc g tr s,
  p_reachable E pc g (p_new tr) s ->
  length (p_aR s) = length (p_aL s) /\ length (p_aO s) = length (p_aL s) /\
  (forall i, nth i (p_aO s) 0 = nth i (p_aL s) 0 * nth i (p_aR s) 0) /\
  (forall i, p_pend s = Some i -> (i < length (p_aL s))%nat /\ nth i (p_aR s) 0 = 0).
Proof. intros F V E pc g tr s H. exact (proj1 (p_reachable_inv (gn := 0) E pc g (p_new tr) s (p_new_inv tr) H)). Qed.

Theorem C02_stable : forall (F : Field) (V : VSpace F) (E : TrEnv V) pc g tr s s' v x,
  p_reachable E pc g (p_new tr) s -> p_reachable E pc g s s' ->
  issued s v -> p_var s v = Some x -> issued s' v /\ p_var s' v = Some x.
Proof.
  intros F V E pc g tr s s' v x H1 H2 Hi Hv.
  destruct (p_reachable_inv (gn := 0) E pc g (p_new tr) s (p_new_inv tr) H1) as [Hg _].
  destruct (p_reachable_inv E pc g s s' Hg H2) as [_ He]. apply He; assumption.
Qed.

(** Every variable a call returns is issued and carries the expected value. *)
Theorem C02_returned : forall (F : Field) (V : VSpace F) (E : TrEnv V) pc g tr s,
  p_reachable E pc g (p_new tr) s ->
  (forall l r s' lv rv ov, p_multiply s l r = Some (s', (lv, rv, ov)) ->
     issued s' lv /\ p_var s' lv = p_eval s l /\ issued s' rv /\ p_var s' rv = p_eval s r /\ issued s' ov /\
     exists x y, p_eval s l = Some x /\ p_eval s r = Some y /\ p_var s' ov = Some (x * y)) /\
  (forall x, exists s' v, p_allocate s (Some x) = Some (s', Ok v) /\ issued s' v /\ p_var s' v = Some x) /\
  (forall x y s' r, p_allocate_multiplier s (Some (x, y)) = (s', r) ->
     exists lv rv ov, r = Ok (lv, rv, ov) /\ issued s' lv /\ issued s' rv /\ issued s' ov /\
     p_var s' lv = Some x /\ p_var s' rv = Some y /\ p_var s' ov = Some (x * y)) /\
  (forall v vb s' c u, p_commit E pc s v vb = (s', (c, u)) -> issued s' u /\ p_var s' u = Some v) /\
  (forall v vb s' c us, p_commit_vec E pc g s v vb = Some (s', (c, us)) ->
     length us = length v /\
     forall i, (i < length v)%nat -> issued s' (nth i us One) /\ p_var s' (nth i us One) = nth_error v i).
Proof.
  intros F V E pc g tr s H. destruct (p_reachable_inv (gn := 0) E pc g (p_new tr) s (p_new_inv tr) H) as [Hg _].
  split; [|split; [|split; [|split]]].
  - intros l r s' lv rv ov Hm. destruct (p_multiply_returns s l r s' lv rv ov Hg Hm) as (_ & _ & [A B] & [C D] & [I J]). auto 8.
  - intros x. destruct (p_allocate_total s (Some x) Hg) as (s' & r & Hr).
    destruct (p_allocate_returns s x s' r Hg Hr) as (v & -> & Hi & Hv). eauto.
  - intros. eapply p_allocate_multiplier_returns; eassumption.
  - intros. eapply p_commit_returns; eassumption.
  - intros. eapply p_commit_vec_returns; eassumption.
Qed.
Print Assumptions C02_gates.
Print Assumptions C02_stable.
Print Assumptions C02_returned.

Example C02_demo : exists s, p_reachable E101 pc101 g101 (p_new []) s /\ length (p_aL s) = 2%nat /\ p_pend s = Some 0%nat.
Proof.
  destruct (is_some_ex (prun E101 (demo_gadget (Some (z101 4)) (VectorCommit 0 0)) demo_p1) ltac:(vm_compute; reflexivity))
    as [[s a] Hs].
  destruct (is_some_ex (p_commit_vec E101 pc101 g101 (p_new []) [z101 7; z101 8] (z101 9)) ltac:(vm_compute; reflexivity))
    as [[s0 r] H0].
  assert (Hd : demo_p1 = s0) by (unfold demo_p1; rewrite H0; reflexivity).
  exists s. split.
  - eapply preach_step; [eapply preach_step; [apply preach_refl|]|].
    + eapply (pcall_commit_vec E101 pc101 g101 _ [z101 7; z101 8] (z101 9)). exact H0.
    + eapply pcall_gadget. rewrite Hd in Hs. exact Hs.
  - assert (H : option_map (fun x => (length (p_aL (fst x)), p_pend (fst x)))
        (prun E101 (demo_gadget (Some (z101 4)) (VectorCommit 0 0)) demo_p1) = Some (2%nat, Some 0%nat)) by (vm_compute; reflexivity).
    rewrite Hs in H. cbn [option_map fst] in H. apply Some_inj in H. injection H as <- <-. auto.
Qed.

(** ** C03: linear-combination arithmetic *)

Theorem C03_lc_algebra : forall (F : Field) (s : PState F) a b x y k v,
  p_eval s a = Some x -> p_eval s b = Some y ->
  p_eval s (lc_add a b) = Some (x + y) /\ p_eval s (lc_sub a b) = Some (x - y) /\
  p_eval s (lc_neg a) = Some (- x) /\ p_eval s (lc_mul a k) = Some (x * k) /\
  p_eval s (lc_var v) = p_var s v /\ p_eval s (lc_const k) = Some k /\ p_eval s lc_zero = Some 0 /\
  p_eval s (var_mul v k) = option_map (fun z => k * z) (p_var s v).
Proof. exact @lc_algebra. Qed.
Print Assumptions C03_lc_algebra.
Example C03_demo : exists a b x y, p_eval demo_p1 a = Some x /\ p_eval demo_p1 b = Some y /\ x <> 0 /\ y <> 0.
Proof.
  exists (lc_add (lc_var (VectorCommit 0 0)) (lc_const (z101 3))), (var_mul (VectorCommit 0 1) (z101 5)), (z101 10), (z101 40).
  repeat split; try (vm_compute; reflexivity); vm_compute; discriminate.
Qed.

(** ** C04: flattening preserves the constraint system *)

Theorem C04_flatten_value : forall (F : Field) (V : VSpace F) (t : VState V) z fl (w : Var -> F),
  v_flatten t z = Some fl -> w One = 1 ->
  ip (wL fl) (wires w MulL (v_num t)) + ip (wR fl) (wires w MulR (v_num t)) + ip (wO fl) (wires w MulO (v_num t))
  + fsum (length (v_vec t)) (fun j => ip (nth j (wVC fl) []) (wires w (VectorCommit j) (snd (nth j (v_vec t) (v0, 0%nat)))))
  - ip (wV fl) (wires w Committed (length (v_V t))) - wc fl
  = batched_constraints w z (v_cs t).
Proof.
  intros F V t z fl w H H1. rewrite <- (v_flatten_value t z fl w H H1).
  destruct (v_flatten_shape t z fl H) as (S1 & S2 & S3 & S4 & S5).
  unfold flat_value. rewrite S1, S2, S3, S4. repeat f_equal. unfold vc_value.
  assert (Hl : length (wVC fl) = length (v_vec t)) by (apply (f_equal (@length nat)) in S5; rewrite !map_length in S5; exact S5).
  rewrite Hl. apply fsum_ext. intros j Hj. do 2 f_equal.
  rewrite <- nth_map_length, S5. symmetry. apply (nth_map_in snd); assumption.
Qed.

(** Flattening panics exactly when a constraint mentions a variable that does
    not exist, and the vectors have the sizes of the circuit. *)
Theorem C04_flatten_total : forall (F : Field) (V : VSpace F) (t : VState V) z,
  (exists fl, v_flatten t z = Some fl) <->
  Forall (Forall (fun x => var_in_range (v_num t) (length (v_V t)) (map snd (v_vec t)) (fst x))) (v_cs t).
Proof. intros. symmetry. apply v_flatten_total. Qed.

Theorem C04_prover_same : forall (F : Field) (V : VSpace F) (E : TrEnv V) pc g tr s t z fl,
  session E pc g tr s t -> p_flatten s z = Some fl ->
  exists fl', v_flatten t z = Some fl' /\
    wL fl' = wL fl /\ wR fl' = wR fl /\ wO fl' = wO fl /\ wV fl' = wV fl /\ wVC fl' = wVC fl.
Proof.
  intros F V E pc g tr s t z fl Hs H. destruct (session_agree E pc g tr s t Hs) as [_ Ha].
  destruct (p_v_flatten pc g s t z fl Ha H) as (fl' & Hf & H1 & H2 & H3 & H4 & H5). exists fl'. auto 8.
Qed.
Print Assumptions C04_flatten_value.
Print Assumptions C04_flatten_total.
Print Assumptions C04_prover_same.

(* test data or vocabulary of statements, no code modelled *)
Definition demo_v : VState (RegV F101) :=
  match vrun E101 (demo_gadget None (VectorCommit 0 0)) (fst (v_commit_vec E101 (v_new []) 2 (z101 1 : RegV F101))) with
  | Some (t, _) => t | None => v_new [] end.
Example C04_demo : exists fl, v_flatten demo_v (z101 2) = Some fl /\ map i101 (wL fl) = [23; 99]%Z /\ map (map i101) (wVC fl) = [[4; 0]]%Z.
Proof.
  destruct (is_some_ex (v_flatten demo_v (z101 2)) ltac:(vm_compute; reflexivity)) as [fl H].
  exists fl. assert (H2 : option_map (fun fl => (map i101 (wL fl), map (map i101) (wVC fl))) (v_flatten demo_v (z101 2)) = Some ([23; 99], [[4; 0]])%Z).
  { vm_compute. reflexivity. }
  rewrite H in H2. cbn [option_map] in H2. apply Some_inj in H2. split; [exact H|]. injection H2 as H3 H4. split; assumption.
Qed.

(** ** C05: batching challenges catch an unsatisfied circuit *)

(** If a gate or a constraint is violated then among any (number of constraints
    + 1) distinct values of z one is such that at most n - 1 values of y make the
    batched value vanish. *)
Theorem C05_batching : forall (F : Field) (w : Var -> F) (n : nat) (cs : list (LC F)) (zs : list F),
  (exists i, (i < n)%nat /\ w (MulO i) <> w (MulL i) * w (MulR i)) \/ Exists (fun lc => lc_val w lc <> 0) cs ->
  NoDup zs -> (length zs > length cs)%nat ->
  exists z, In z zs /\ forall ys, NoDup ys ->
    Forall (fun y => batched_gates w y n + batched_constraints w z cs = 0) ys -> (length ys <= n - 1)%nat.
Proof. exact @batching_exists. Qed.

(** When all gates hold, fewer than Q non-zero values of z hide a violated
    constraint. *)
Theorem C05_batching_z : forall (F : Field) (w : Var -> F) (cs : list (LC F)) (zs : list F),
  Exists (fun lc => lc_val w lc <> 0) cs -> NoDup zs -> ~ In 0 zs ->
  Forall (fun z => batched_constraints w z cs = 0) zs -> (length zs < length cs)%nat.
Proof. exact @batching_z. Qed.

(** For a satisfied circuit the batched value is always zero. *)
Theorem C05_satisfied : forall (F : Field) (w : Var -> F) n cs y z,
  satisfies w cs -> batched_gates w y n + batched_constraints w z cs = 0.
Proof. exact @batched_satisfied. Qed.
Print Assumptions C05_batching.
Print Assumptions C05_batching_z.
Print Assumptions C05_satisfied.

(** One violated constraint out of two; z = 1 hides nothing here, z = 3 does. *)
Example C05_demo : exists (w : Var -> F101) cs,
  Exists (fun lc => lc_val w lc <> 0) cs /\ batched_constraints w (z101 1) cs <> 0 /\
  batched_constraints w (z101 3) cs = 0.
Proof.
  exists (fun _ => 1), [lc_const (z101 98); lc_const (z101 1)]. split; [|split].
  - left. vm_compute. discriminate.
  - vm_compute. discriminate.
  - vm_compute. reflexivity.
Qed.
