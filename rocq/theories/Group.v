(** * Groups with scalar multiplication, as assumed of [ark_ec::AffineRepr]

    The additive groups in which commitments live are seen by the model as
    modules over the scalar field with boolean equality. *)

From Verif Require Export Vec.

(** what is assumed of [ark_ec::AffineRepr] *)
Record VSpace (F : Field) : Type := mkVSpace {
  vcar :> Type;
  v0 : vcar;
  vadd : vcar -> vcar -> vcar;
  vopp : vcar -> vcar;
  vsmul : F -> vcar -> vcar;
  veqb : vcar -> vcar -> bool;
  veqb_spec : forall x y, reflect (x = y) (veqb x y);
  vadd_comm : forall x y, vadd x y = vadd y x;
  vadd_assoc : forall x y z, vadd x (vadd y z) = vadd (vadd x y) z;
  vadd_0_l : forall x, vadd v0 x = x;
  vadd_opp_r : forall x, vadd x (vopp x) = v0;
  vsmul_1 : forall x, vsmul f1 x = x;
  vsmul_mul : forall a b x, vsmul (fmul a b) x = vsmul a (vsmul b x);
  vsmul_add_l : forall a b x, vsmul (fadd a b) x = vadd (vsmul a x) (vsmul b x);
  vsmul_add_r : forall a x y, vsmul a (vadd x y) = vadd (vsmul a x) (vsmul a y)
}.
Arguments v0 {F _}.
Arguments vadd {F _} _ _.
Arguments vopp {F _} _.
Arguments vsmul {F _} _ _.
Arguments veqb {F _} _ _.

(** subtraction (ark_ec) *)
Definition vsub {F : Field} {V : VSpace F} (x y : V) : V := vadd x (vopp y).

Declare Scope V_scope.
Delimit Scope V_scope with V.
Bind Scope V_scope with vcar.
Notation "0" := v0 : V_scope.
Notation "x + y" := (vadd x y) : V_scope.
Notation "x - y" := (vsub x y) : V_scope.
Notation "- x" := (vopp x) : V_scope.
Notation "c ** x" := (vsmul c x) (at level 40, no associativity) : V_scope.

(** Multi-scalar multiplication: [msm_unchecked] of ark_ec, which zips and
    hence truncates to the shorter of the two lists. *)
Fixpoint msm {F : Field} {V : VSpace F} (cs : list F) (ps : list V) : V :=
  match cs, ps with
  | c :: cs', p :: ps' => vadd (vsmul c p) (msm cs' ps')
  | _, _ => v0
  end.

(** finite sums (no code modelled) *)
Fixpoint gsum {F : Field} {V : VSpace F} (n : nat) (f : nat -> V) : V :=
  match n with O => v0 | S k => vadd (gsum k f) (f k) end.

Section VLemmas.
  Context {F : Field} {V : VSpace F}.
  Add Field FFg : (f_th F).
  Implicit Types (P Q R : V) (a b c : F).
  Local Open Scope V_scope.

  Lemma vadd_0_r P : P + 0 = P. Proof. rewrite vadd_comm. apply vadd_0_l. Qed.
  Lemma vadd_opp_l P : - P + P = 0. Proof. rewrite vadd_comm. apply vadd_opp_r. Qed.
  Lemma vadd_cancel_l P Q R : P + Q = P + R -> Q = R.
  Proof.
    intros H. rewrite <- (vadd_0_l _ _ Q), <- (vadd_0_l _ _ R), <- (vadd_opp_l P), <- !vadd_assoc, H. reflexivity.
  Qed.
  Lemma vsmul_0_l P : f0 ** P = 0.
  Proof.
    apply (vadd_cancel_l (f1 ** P)). rewrite <- vsmul_add_l, fadd_0_r, vadd_0_r. reflexivity.
  Qed.
  Lemma vsmul_0_r a : a ** (0 : V) = 0.
  Proof. apply (vadd_cancel_l (a ** 0)). rewrite <- vsmul_add_r, vadd_0_l, vadd_0_r. reflexivity. Qed.
  Lemma vsmul_opp1 P : fopp f1 ** P = - P.
  Proof.
    apply (vadd_cancel_l P). rewrite vadd_opp_r. rewrite <- (vsmul_1 _ _ P) at 1.
    rewrite <- vsmul_add_l. replace (f1 + - f1)%F with (f0 : F) by ring. apply vsmul_0_l.
  Qed.
  Lemma veqb_true P Q : veqb P Q = true <-> P = Q.
  Proof. destruct (veqb_spec _ _ P Q); split; congruence. Qed.
  Lemma veqb_false P Q : veqb P Q = false <-> P <> Q.
  Proof. destruct (veqb_spec _ _ P Q); split; congruence. Qed.
  Lemma veqb_refl P : veqb P P = true. Proof. apply veqb_true. reflexivity. Qed.

  (** ** a decision procedure for linear identities *)
  Inductive vexp :=
  | VA (n : nat) | VZ | VAdd (x y : vexp) | VSub (x y : vexp) | VOpp (x : vexp) | VSm (c : F) (x : vexp).
  (** value of an expression (no code modelled) *)
  Fixpoint vden (env : list V) (e : vexp) : V :=
    match e with
    | VA n => nth n env v0
    | VZ => v0
    | VAdd x y => vadd (vden env x) (vden env y)
    | VSub x y => vsub (vden env x) (vden env y)
    | VOpp x => vopp (vden env x)
    | VSm c x => vsmul c (vden env x)
    end.
  (** coefficient of an atom (no code modelled) *)
  Fixpoint coef (e : vexp) (i : nat) : F :=
    match e with
    | VA n => if Nat.eqb n i then f1 else f0
    | VZ => f0
    | VAdd x y => fadd (coef x i) (coef y i)
    | VSub x y => fsub (coef x i) (coef y i)
    | VOpp x => fopp (coef x i)
    | VSm c x => fmul c (coef x i)
    end.
  (** equality of all coefficients (no code modelled) *)
  Fixpoint all_coef_eq (n : nat) (e1 e2 : vexp) : Prop :=
    match n with O => True | S k => coef e1 k = coef e2 k /\ all_coef_eq k e1 e2 end.

  Lemma gsum_ext n (f g : nat -> V) : (forall i, (i < n)%nat -> f i = g i) -> gsum n f = gsum n g.
  Proof. induction n as [|n IH]; intros H; cbn; [reflexivity|]. rewrite IH, H; auto. Qed.
  Lemma vadd_swap P Q R (S : V) : (P + Q) + (R + S) = (P + R) + (Q + S).
  Proof.
    rewrite <- !vadd_assoc. f_equal. rewrite !vadd_assoc. f_equal. apply vadd_comm.
  Qed.
  Lemma gsum_add n (f g : nat -> V) : gsum n (fun i => f i + g i) = gsum n f + gsum n g.
  Proof.
    induction n as [|n IH]; cbn; [rewrite vadd_0_l; reflexivity|]. rewrite IH. apply vadd_swap.
  Qed.
  Lemma gsum_smul n c (f : nat -> V) : gsum n (fun i => c ** f i) = c ** gsum n f.
  Proof.
    induction n as [|n IH]; cbn; [rewrite vsmul_0_r; reflexivity|]. rewrite IH, vsmul_add_r. reflexivity.
  Qed.
  Lemma gsum_zero n (f : nat -> V) : (forall i, (i < n)%nat -> f i = 0) -> gsum n f = 0.
  Proof. induction n as [|n IH]; intros H; cbn; [reflexivity|]. rewrite IH, H, vadd_0_l; auto. Qed.
  Lemma gsum_single n (f : nat -> V) k :
    (k < n)%nat -> (forall i, (i < n)%nat -> i <> k -> f i = 0) -> gsum n f = f k.
  Proof.
    intros Hk H. induction n as [|n IH]; [lia|]. cbn.
    destruct (Nat.eq_dec k n) as [->|].
    - rewrite gsum_zero; [apply vadd_0_l|]. intros; apply H; lia.
    - rewrite IH, (H n); [apply vadd_0_r|lia|lia|lia|]. intros; apply H; lia.
  Qed.
  Lemma vopp_smul P : - P = fopp f1 ** P. Proof. symmetry. apply vsmul_opp1. Qed.

  Lemma vden_coef env e : vden env e = gsum (length env) (fun i => coef e i ** nth i env v0).
  Proof.
    induction e as [n| |x IHx y IHy|x IHx y IHy|x IHx|c x IHx]; cbn [vden coef].
    - destruct (Nat.lt_ge_cases n (length env)) as [Hlt|Hge].
      + rewrite (gsum_single _ _ n Hlt).
        * rewrite Nat.eqb_refl, vsmul_1. reflexivity.
        * intros i _ Hi. destruct (Nat.eqb_spec n i); [lia|]. apply vsmul_0_l.
      + rewrite nth_overflow by assumption. symmetry. apply gsum_zero.
        intros i Hi. destruct (Nat.eqb_spec n i); [lia|]. apply vsmul_0_l.
    - symmetry. apply gsum_zero. intros; apply vsmul_0_l.
    - rewrite IHx, IHy, <- gsum_add. apply gsum_ext. intros; rewrite vsmul_add_l; reflexivity.
    - unfold vsub. rewrite IHx, IHy, vopp_smul, <- gsum_smul, <- gsum_add. apply gsum_ext. intros.
      rewrite <- vsmul_mul, <- vsmul_add_l. f_equal. ring.
    - rewrite IHx, vopp_smul, <- gsum_smul. apply gsum_ext. intros.
      rewrite <- vsmul_mul. f_equal. ring.
    - rewrite IHx, <- gsum_smul. apply gsum_ext. intros. rewrite <- vsmul_mul. reflexivity.
  Qed.
  Lemma vden_eq env e1 e2 : all_coef_eq (length env) e1 e2 -> vden env e1 = vden env e2.
  Proof.
    intros H. rewrite !vden_coef. revert H. generalize (length env) as n.
    induction n as [|n IH]; cbn [all_coef_eq gsum]; [reflexivity|].
    intros [-> H]. rewrite (IH H). reflexivity.
  Qed.
End VLemmas.

Ltac v_mem x l :=
  match l with
  | nil => constr:(false)
  | x :: _ => constr:(true)
  | _ :: ?r => v_mem x r
  end.
Ltac v_idx x l :=
  match l with
  | x :: _ => constr:(O)
  | _ :: ?r => let n := v_idx x r in constr:(S n)
  end.
Ltac v_atoms e l :=
  match e with
  | v0 => l
  | vadd ?x ?y => let l1 := v_atoms x l in v_atoms y l1
  | vsub ?x ?y => let l1 := v_atoms x l in v_atoms y l1
  | vopp ?x => v_atoms x l
  | vsmul ?c ?x => v_atoms x l
  | _ => match v_mem e l with true => l | false => constr:(e :: l) end
  end.
Ltac v_reify F e l :=
  match e with
  | v0 => constr:(@VZ F)
  | vadd ?x ?y => let a := v_reify F x l in let b := v_reify F y l in constr:(@VAdd F a b)
  | vsub ?x ?y => let a := v_reify F x l in let b := v_reify F y l in constr:(@VSub F a b)
  | vopp ?x => let a := v_reify F x l in constr:(@VOpp F a)
  | vsmul ?c ?x => let a := v_reify F x l in constr:(@VSm F c a)
  | _ => let n := v_idx e l in constr:(@VA F n)
  end.
(** Reduce a linear identity in a [VSpace] to equalities between coefficients. *)
Ltac vlin :=
  lazymatch goal with
  | |- @eq (vcar ?F ?V) ?x ?y =>
    let l0 := constr:(@nil (vcar F V)) in
    let l1 := v_atoms x l0 in
    let l := v_atoms y l1 in
    let ex := v_reify F x l in
    let ey := v_reify F y l in
    change (@vden F V l ex = @vden F V l ey);
    apply vden_eq; cbn [length all_coef_eq coef Nat.eqb]; repeat split
  end.
Ltac vring := vlin; ring.

Section Msm.
  Context {F : Field} {V : VSpace F}.
  Add Field FFm : (f_th F).
  Implicit Types (P Q R : V) (a b c : F) (cs ds : list F) (ps : list V).
  Local Open Scope V_scope.

  Lemma vsub_eq_0 P Q : P - Q = 0 <-> P = Q.
  Proof.
    split; intros H.
    - replace P with ((P - Q) + Q) by vring. rewrite H. vring.
    - subst. vring.
  Qed.
  Lemma vsmul_eq_0 a P : a ** P = 0 -> a = f0 \/ P = 0.
  Proof.
    intros H. destruct (f_eq_dec a f0) as [|Ha]; [left; assumption|right].
    replace P with (finv a ** (a ** P)).
    - rewrite H. vring.
    - rewrite <- vsmul_mul, finv_l by assumption. vring.
  Qed.
  Lemma vsmul_sub_l a b P : (a - b)%F ** P = a ** P - b ** P. Proof. vring. Qed.
  Lemma vsmul_inj_l a b P : P <> 0 -> a ** P = b ** P -> a = b.
  Proof.
    intros HP H. apply fsub_0_iff. destruct (vsmul_eq_0 (a - b)%F P) as [|]; [|assumption|contradiction].
    rewrite vsmul_sub_l, H. vring.
  Qed.
  Lemma vsmul_inj_r a P Q : a <> f0 -> a ** P = a ** Q -> P = Q.
  Proof.
    intros Ha H. apply vsub_eq_0. destruct (vsmul_eq_0 a (P - Q)) as [|]; [|contradiction|assumption].
    replace (a ** (P - Q)) with (a ** P - a ** Q) by vring. rewrite H. vring.
  Qed.
  Lemma vopp_inj P Q : - P = - Q -> P = Q.
  Proof. intros H. replace P with (- - P) by vring. rewrite H. vring. Qed.

  Lemma gsum_sub n (f g : nat -> V) : gsum n (fun i => f i - g i) = gsum n f - gsum n g.
  Proof. induction n as [|n IH]; cbn; [vring|]. rewrite IH. vring. Qed.
  Lemma gsum_split n m (f : nat -> V) : gsum (n + m) f = gsum n f + gsum m (fun i => f (n + i)%nat).
  Proof.
    induction m as [|m IH]; [rewrite Nat.add_0_r; cbn; vring|].
    rewrite Nat.add_succ_r. cbn. rewrite IH. vring.
  Qed.
  Lemma gsum_S_l n (f : nat -> V) : gsum (S n) f = f O + gsum n (fun i => f (S i)).
  Proof. rewrite (gsum_split 1 n). cbn. vring. Qed.
  Lemma gsum_extend n m (f : nat -> V) :
    (n <= m)%nat -> (forall i, (n <= i < m)%nat -> f i = 0) -> gsum m f = gsum n f.
  Proof.
    intros Hle H. replace m with (n + (m - n))%nat by lia. rewrite gsum_split.
    rewrite (gsum_zero (m - n)); [vring|]. intros; apply H; lia.
  Qed.
  Lemma gsum_smul_r n (f : nat -> F) P : gsum n (fun i => f i ** P) = fsum n f ** P.
  Proof. induction n as [|n IH]; cbn; [vring|]. rewrite IH. vring. Qed.
  Lemma gsum_swap n m (f : nat -> nat -> V) :
    gsum n (fun i => gsum m (f i)) = gsum m (fun j => gsum n (fun i => f i j)).
  Proof.
    induction n as [|n IH]; cbn; [symmetry; apply gsum_zero; auto|].
    rewrite IH, gsum_add. reflexivity.
  Qed.

  Lemma msm_gsum cs ps n : (Nat.min (length cs) (length ps) <= n)%nat ->
    msm cs ps = gsum n (fun i => nth i cs f0 ** nth i ps v0).
  Proof.
    revert ps n; induction cs as [|c cs IH]; intros [|p ps] n H.
    1,2,3: symmetry; apply gsum_zero; intros [|i]; cbn; intros; try vring;
      destruct (length ps); cbn; vring.
    destruct n as [|n]; [cbn in H; lia|]. rewrite gsum_S_l. cbn [msm nth].
    rewrite (IH ps n); [reflexivity|cbn in H; lia].
  Qed.
  Lemma msm_app cs1 cs2 ps1 ps2 : length cs1 = length ps1 ->
    msm (cs1 ++ cs2) (ps1 ++ ps2) = msm cs1 ps1 + msm cs2 ps2.
  Proof.
    revert ps1; induction cs1 as [|c cs IH]; intros [|p ps]; cbn; intros; try lia; [vring|].
    rewrite IH by lia. vring.
  Qed.
  Lemma msm_nil_r cs : msm cs ([] : list V) = 0. Proof. destruct cs; reflexivity. Qed.
  Lemma msm_scale c cs ps : msm (vscale c cs) ps = c ** msm cs ps.
  Proof.
    revert ps; induction cs as [|d cs IH]; intros [|p ps]; cbn; try vring.
    unfold vscale in IH. rewrite IH. vring.
  Qed.
  Lemma msm_add cs ds ps : length cs = length ds ->
    msm (zipw fadd cs ds) ps = msm cs ps + msm ds ps.
  Proof.
    revert ds ps; induction cs as [|c cs IH]; intros [|d ds] [|p ps]; cbn; intros; try lia; try vring.
    rewrite IH by lia. vring.
  Qed.
  Lemma msm_zeros n ps : msm (zeros n) ps = 0.
  Proof. revert ps; induction n as [|n IH]; intros [|p ps]; cbn; auto. unfold zeros in IH. rewrite IH. vring. Qed.
  Lemma msm_firstn_r cs ps n : (length cs <= n)%nat -> msm cs (firstn n ps) = msm cs ps.
  Proof.
    revert ps n; induction cs as [|c cs IH]; intros [|p ps] [|n]; cbn; intros; try lia; auto.
    rewrite IH by lia. reflexivity.
  Qed.
End Msm.

(** The scalar field acting on itself: the simplest group of the interface. *)
Section RegV.
  Variable F : Field.
  Add Field FFr : (f_th F).
  (** the field as a module (no code modelled) *)
  Definition RegV : VSpace F.
  Proof.
    refine (mkVSpace F F f0 fadd fopp fmul feqb (feqb_spec F) _ _ _ _ _ _ _ _); intros; ring.
  Defined.
End RegV.
