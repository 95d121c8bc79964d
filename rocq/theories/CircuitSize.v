(** * How many multipliers the gadgets use

    [allocate] uses half a multiplier, [multiply] and [allocate_multiplier] a whole one;
    the sizes are counted in halves. *)
From Verif Require Export SelRerand PourProofs.
From Verif Require Import CSProofs CSMore UtilProofs R1CSVerif R1CSMore R1CSTotal R1CSMisc CSLogic RerandTables TreeProofs PropsTree SelPath PropsSelRerand.
Local Open Scope F_scope.

(** [uses p n]: every run of [p] in which all allocations succeed takes exactly [n] half
    multipliers, and [p] defers no constraint to the second phase (no code modelled). *)
Fixpoint uses {F : Field} {A} (p : Prog F A) (n : nat) : Prop :=
  match p with
  | PRet _ => n = 0%nat
  | PPanic => True
  | PMul _ _ k => exists m, n = (2 + m)%nat /\ forall v, uses (k v) m
  | PAlloc _ k => exists m, n = (1 + m)%nat /\ forall v, uses (k (Ok v)) m
  | PAllocMul _ k => exists m, n = (2 + m)%nat /\ forall v, uses (k (Ok v)) m
  | PConstrain _ k => uses k n
  | PAppend _ _ k => uses k n
  | PMetrics k => forall m, uses (k m) n
  | PChallenge _ k => forall c, uses (k c) n
  | PSpecify _ k => False
  end.
(** 1 if half of the last multiplier is unused, 0 otherwise (no code modelled). *)
Definition spare {F : Field} {V : VSpace F} (t : VState V) : nat := match v_pend t with Some _ => 1 | None => 0 end.

Section Uses.
  Context {F : Field} {V : VSpace F} (E : TrEnv V).
  Lemma vrun_uses {A} (p : Prog F A) : forall n (t t' : VState V) a, uses p n -> vrun E p t = Some (t', a) -> (2 * v_num t' + spare t = 2 * v_num t + spare t' + n)%nat.
  Proof.
    induction p as [A a|A|A l r k IH|A a k IH|A a k IH|A c k IH|A l m k IH|A k IH|A l k IH|A cb IHcb k IH]; intros n t t' x Hu R; cbn [uses vrun] in *.
    - apply Some_inj in R. injection R as <- _. subst n. lia.
    - discriminate.
    - destruct Hu as (m & -> & Hu). unfold v_multiply in R. cbn in R. apply (IH _ _ _ _ _ (Hu _)) in R. unfold spare in *. cbn in *. lia.
    - destruct Hu as (m & -> & Hu). unfold v_allocate in R. destruct (v_pend t) eqn:Ep; cbn in R; apply (IH _ _ _ _ _ (Hu _)) in R; unfold spare in *; rewrite ?Ep; cbn in *; lia.
    - destruct Hu as (m & -> & Hu). unfold v_allocate_multiplier in R. cbn in R. apply (IH _ _ _ _ _ (Hu _)) in R. unfold spare in *. cbn in *. lia.
    - apply (IH _ _ _ _ Hu) in R. exact R.
    - apply (IH _ _ _ _ Hu) in R. exact R.
    - apply (IH _ _ _ _ _ (Hu _)) in R. exact R.
    - destruct (challenge_scalar E (v_tr t) l) as [[c tr]|]; [|discriminate]. apply (IH _ _ _ _ _ (Hu _)) in R. exact R.
    - contradiction.
  Qed.
  Lemma vrun_uses_def {A} (p : Prog F A) : forall n (t t' : VState V) a, uses p n -> vrun E p t = Some (t', a) -> v_def t' = v_def t.
  Proof.
    induction p as [A a|A|A l r k IH|A a k IH|A a k IH|A c k IH|A l m k IH|A k IH|A l k IH|A cb IHcb k IH]; intros n t t' x Hu R; cbn [uses vrun] in *.
    - apply Some_inj in R. injection R as <- _. reflexivity.
    - discriminate.
    - destruct Hu as (m & -> & Hu). unfold v_multiply in R. cbn in R. apply (IH _ _ _ _ _ (Hu _)) in R. exact R.
    - destruct Hu as (m & -> & Hu). unfold v_allocate in R. destruct (v_pend t) eqn:Ep; cbn in R; apply (IH _ _ _ _ _ (Hu _)) in R; exact R.
    - destruct Hu as (m & -> & Hu). unfold v_allocate_multiplier in R. cbn in R. apply (IH _ _ _ _ _ (Hu _)) in R. exact R.
    - apply (IH _ _ _ _ Hu) in R. exact R.
    - apply (IH _ _ _ _ Hu) in R. exact R.
    - apply (IH _ _ _ _ _ (Hu _)) in R. exact R.
    - destruct (challenge_scalar E (v_tr t) l) as [[c tr]|]; [|discriminate]. apply (IH _ _ _ _ _ (Hu _)) in R. exact R.
    - contradiction.
  Qed.
End Uses.

Section Costs.
  Context {F : Field}.
  Lemma uses_bind {A B} (p : Prog F A) : forall (k : A -> Prog F B) m, (forall a, uses (k a) m) -> forall n, uses p n -> uses (pbind p k) (n + m).
  Proof.
    induction p as [A a|A|A l r g IH|A a g IH|A a g IH|A c g IH|A l x g IH|A g IH|A l g IH|A cb _ g IH]; intros k m Hk n H; cbn [uses pbind] in *; auto.
    - subst n. apply Hk.
    - destruct H as (q & -> & H). exists (q + m)%nat. split; [lia|]. intros v. apply IH; auto.
    - destruct H as (q & -> & H). exists (q + m)%nat. split; [lia|]. intros v. apply IH; auto.
    - destruct H as (q & -> & H). exists (q + m)%nat. split; [lia|]. intros v. apply IH; auto.
  Qed.
  Lemma uses_eq {A} (p : Prog F A) n m : uses p n -> n = m -> uses p m.
  Proof. intros H <-. exact H. Qed.
  Lemma uses_unwrap {A B} (o : option A) (k : A -> Prog F B) n : (forall a, uses (k a) n) -> uses (punwrap o k) n.
  Proof. destruct o; cbn [punwrap]; auto. intros _. exact I. Qed.

  Lemma uses_select_loop x : forall xs p, uses (select_loop (F := F) x p xs) (2 * length xs).
  Proof. induction xs as [|y xs IH]; intros p; cbn [select_loop uses length]; [reflexivity|]. exists (2 * length xs)%nat. split; [lia|]. intros [[a b] c]. apply IH. Qed.
  Lemma uses_select x xs : uses (select (F := F) x xs) (2 * (length xs - 1)).
  Proof. destruct xs as [|y xs]; [exact I|]. cbn [select length]. replace (S (length xs) - 1)%nat with (length xs) by lia. apply uses_select_loop. Qed.
  Lemma uses_range dbg n : forall i e v, uses (range_loop (F := F) dbg None n i e v) (2 * n).
  Proof. induction n as [|n IH]; intros i e v; cbn [range_loop uses]; [reflexivity|]. exists (2 * n)%nat. split; [lia|]. intros [[a b] c]. cbn [uses]. apply IH. Qed.
  Lemma uses_rows {A} (k : list (LC F) -> Prog F A) sa s0 s1 s2 n : (forall r, uses (k r) n) -> forall rows acc, uses (lookup_rows rows sa s0 s1 s2 acc k) (2 * length rows + n).
  Proof.
    intros Hk. induction rows as [|u rows IH]; intros acc; cbn [lookup_rows length]; [apply Hk|]. unfold single_membership. cbn [uses]. exists (2 * length rows + n)%nat. split; [lia|].
    intros [[a b] c]. apply IH.
  Qed.
  Lemma uses_lookup (table : list (list F)) index : uses (lookup_bits table index) (8 + 2 * length table).
  Proof.
    unfold lookup_bits, bit, is_bit. cbn [uses]. exists (6 + 2 * length table)%nat. split; [lia|]. intros [[b1 b2] ba]. cbn [uses]. exists (4 + 2 * length table)%nat. split; [lia|].
    intros [[b0 c0] z]. cbn [uses]. exists (2 + 2 * length table)%nat. split; [lia|]. intros [[? ?] ?]. cbn [uses]. exists (2 * length table)%nat. split; [lia|]. intros [[? ?] ?]. cbn [uses].
    eapply uses_eq; [apply uses_rows with (n := 0%nat)|lia]. intros r. reflexivity.
  Qed.
  Lemma uses_check x y (a b : F) : uses (curve_check x y a b) 6.
  Proof. cbn. exists 4%nat. split; [lia|]. intros [[? ?] ?]. exists 2%nat. split; [lia|]. intros [[? ?] ?]. exists 0%nat. split; [lia|]. intros [[? ?] ?]. reflexivity. Qed.
  Lemma uses_incomplete (p : CurveAddition F) : uses (incomplete_curve_addition p) 7.
  Proof.
    unfold incomplete_curve_addition, palloc. cbn [uses]. exists 6%nat. split; [lia|]. intros d. exists 4%nat. split; [lia|]. intros [[? ?] ?]. cbn [uses]. exists 2%nat. split; [lia|]. intros [[? ?] ?]. cbn [uses].
    exists 0%nat. split; [lia|]. intros [[? ?] ?]. reflexivity.
  Qed.
  Lemma uses_checked (p : CurveAddition F) inv : uses (checked_curve_addition p inv) 10.
  Proof. unfold checked_curve_addition, palloc, not_zero. cbn [uses]. exists 9%nat. split; [lia|]. intros d. exists 7%nat. split; [lia|]. intros [[? ?] ?]. cbn [uses]. apply uses_incomplete. Qed.
  Lemma uses_palloc {A} (a : option F) (k : Var -> Prog F A) n : (forall v, uses (k v) n) -> uses (palloc a k) (1 + n).
  Proof. intros H. exists n. split; [reflexivity|exact H]. Qed.
End Costs.

Section CurveCosts.
  Context {F : Field} {S : PField} {C : SWCurve F S}.
  (** one window: the lookup, the accumulator, and the addition unless it is the first (no code modelled) *)
  Definition window_cost (m i : nat) : nat := if (1 <? i)%nat then if (i =? m)%nat then 24 else 21 else 14.
  Lemma uses_iter {A} tied m table i (wit : RWit) ax ay (next : Var * Var * Var -> Var -> Var -> Prog F A) n : (forall bs x y, uses (next bs x y) n) ->
    uses (rerand_iter tied m table i wit ax ay next) (8 + 2 * length table + (window_cost m i - 12) + n).
  Proof.
    intros Hn. unfold rerand_iter. rewrite <- Nat.add_assoc. apply uses_bind; [|apply uses_lookup].
    intros [[bs [|xt [|yt [|? ?]]]]|e]; try exact I. unfold window_cost.
    eapply uses_eq; [apply uses_palloc with (n := (1 + (if (1 <? i)%nat then if (i =? m)%nat then 10 else 7 else 0) + n)%nat)|]; [|destruct (1 <? i)%nat; [destruct (i =? m)%nat|]; cbn [Nat.sub]; lia].
    intros xv. eapply uses_eq; [apply uses_palloc with (n := ((if (1 <? i)%nat then if (i =? m)%nat then 10 else 7 else 0) + n)%nat)|lia].
    intros yv. destruct (1 <? i)%nat.
    - destruct (i =? m)%nat; apply uses_bind; auto using uses_checked, uses_incomplete.
    - destruct tied; cbn [uses]; auto.
  Qed.
  Lemma uses_loop tied tables r : Forall (fun t => length t = 2%nat) tables -> forall k i (acc : C) ax ay bits, (1 <= i)%nat -> (2 <= windows (S := S))%nat -> (i + k = Datatypes.S (windows (S := S)))%nat ->
    uses (rerand_loop tied (windows (S := S)) tables r k i acc ax ay bits) (match k with O => 0 | _ => if (1 <? i)%nat then 21 * k + 3 else 21 * k - 4 end).
  Proof.
    intros Ht. induction k as [|k IH]; intros i acc ax ay bits Hi Hw Hk; cbn [rerand_loop]; [reflexivity|].
    destruct (nth_error tables (i - 1)) as [table|] eqn:Et; [|exact I]. cbn [punwrap]. rewrite Forall_forall in Ht. pose proof (Ht _ (nth_error_In _ _ Et)) as Hl.
    apply uses_unwrap. intros [wit acc']. eapply uses_eq; [apply uses_iter; intros bs x y; apply IH; lia|]. rewrite Hl. unfold window_cost.
    destruct (1 <? i)%nat eqn:E1; [apply Nat.ltb_lt in E1|apply Nat.ltb_ge in E1]; (replace (1 <? i + 1)%nat with true by (symmetry; apply Nat.ltb_lt; lia)).
    - destruct (i =? windows (S := S))%nat eqn:E2; [apply Nat.eqb_eq in E2|apply Nat.eqb_neq in E2]; destruct k as [|k]; lia.
    - destruct k as [|k]; lia.
  Qed.
  Lemma uses_final (c : PRep C) xt yt acc ax ay : uses (rerand_final c xt yt acc ax ay) 10.
  Proof. unfold rerand_final. destruct (pr_w c); [|apply uses_checked]. repeat (apply uses_unwrap; intros; try match goal with |- uses (let '(_, _) := ?a in _) _ => destruct a end). apply uses_checked. Qed.
  Lemma uses_rerand tied A0 tables (c : PRep C) xt yt r : Forall (fun t => length t = 2%nat) tables -> (2 <= windows (S := S))%nat ->
    uses (re_randomize_from tied A0 tables c xt yt r) (21 * windows (S := S) + 6).
  Proof.
    intros Ht Hw. unfold re_randomize_from. eapply uses_eq; [apply uses_bind; [|apply uses_loop; auto; lia]|].
    - intros [[[acc ax] ay] bits]. eapply uses_eq; [apply uses_bind; [|apply uses_final]; intros; reflexivity|reflexivity].
    - cbn [Nat.ltb Nat.leb]. destruct (windows (S := S)) as [|n]; lia.
  Qed.
End CurveCosts.

(** ** Levels *)
(** Half multipliers of a level with [n] children and [w] windows (no code modelled). *)
Definition level_halves (n w : nat) : nat := 2 * n + 21 * w + 12.
(** Half multipliers of a batched level: [M] children are selected out of [n] each (no code modelled). *)
Definition batched_halves (M n w : nat) : nat := M * (2 * n + 18) + 21 * w - 6.

(** the parameters are fit for counting: tables of two rows, at least two windows (no code modelled) *)
Definition countable {F : Field} {S : PField} {C : SWCurve F S} (sl : SLParams C) : Prop := Forall (fun t => length t = 2%nat) (sl_tables sl) /\ (2 <= windows (S := S))%nat.

Section LevelCosts.
  Context {F : Field} {S : PField} {C : SWCurve F S}.
  Lemma tables_rows (h : C) m : forall k i r ts, tables_loop h m k i r = Some ts -> Forall (fun t => length t = 2%nat) ts.
  Proof.
    induction k as [|k IH]; intros i r ts H; cbn [tables_loop] in H; [apply Some_inj in H; subst; constructor|].
    destruct (if (i <? m)%nat then _ else _) as [rt mth]. destruct (one_table h _ rt) as [t|] eqn:Et; [|discriminate]. cbn [opt_bind] in H. destruct (tables_loop h m k (i + 1) mth) as [ts'|] eqn:El; [|discriminate]. cbn [opt_bind] in H.
    apply Some_inj in H. subst ts. constructor; [|eapply IH, El]. unfold one_table in Et. destruct (all_some _) as [es|]; [|discriminate]. cbn [opt_bind] in Et. apply Some_inj in Et. subst t. reflexivity.
  Qed.
  Lemma uses_single enc (sl : SLParams C) ch vars w r : countable sl -> uses (single_level enc sl ch vars w r) (level_halves (length vars) (windows (S := S))).
  Proof.
    intros [Ht Hw]. destruct vars as [|v vars].
    - unfold single_level, single_level_from. cbn [pbind uses]. unfold palloc. cbn [pbind uses]. exists (level_halves 0 (windows (S := S)) - 1)%nat. split; [unfold level_halves; cbn [length]; lia|intros x; exact I].
    - unfold single_level. eapply uses_eq; [apply uses_bind with (m := 0%nat); [intros; reflexivity|]|apply Nat.add_0_r]. unfold single_level_from. cbn [uses].
      eapply uses_eq; [apply uses_palloc; intros x; apply uses_bind; [|apply uses_select]; intros _; apply uses_palloc; intros y; apply uses_bind; [|apply uses_check]; intros _; apply uses_rerand; assumption|].
      unfold level_halves. cbn [length]. lia.
  Qed.
  Lemma uses_helper (l r : PRep C) : uses (checked_helper l r) 12.
  Proof.
    unfold checked_helper. cbv zeta.
    assert (Hgo : forall (xo yo delta inv : option F) (out : option C), uses (palloc xo (fun x_out => palloc yo (fun y_out =>
        pbind (checked_curve_addition (mkCA (pr_x l) (pr_y l) (pr_x r) (pr_y r) (lc_var x_out) (lc_var y_out) delta) inv) (fun _ => PRet (mkPRep (lc_var x_out) (lc_var y_out) out))))) 12).
    { intros. apply (uses_palloc xo _ 11). intros x. apply (uses_palloc yo _ 10). intros y. eapply uses_eq; [apply uses_bind with (m := 0%nat); [|apply uses_checked]; intros; reflexivity|reflexivity]. }
    destruct (pr_w l) as [P|], (pr_w r) as [Q|]; try apply Hgo.
    repeat (apply uses_unwrap; intros; try match goal with |- uses (let '(_, _) := ?a in _) _ => destruct a end). apply Hgo.
  Qed.
  Lemma uses_batched_loop (sl : SLParams C) ws n : (0 < n)%nat -> forall chunks i sum, Forall (fun c => length c = n) chunks ->
    uses (batched_loop sl ws i chunks sum) (length chunks * (2 * n + 6) + 12 * (length chunks - (if (i =? 0)%nat then 1 else 0))).
  Proof.
    intros Hn. induction chunks as [|c chunks IH]; intros i sum Hc; cbn [batched_loop]; [reflexivity|]. apply Forall_inv_tail in Hc as Hc'. apply Forall_inv in Hc.
    apply uses_unwrap. intros wit. eapply uses_eq; [apply uses_palloc; intros x; apply uses_palloc; intros y; cbv zeta; apply uses_bind; [|apply uses_select]; intros _; apply uses_bind; [|apply uses_check]; intros _;
      apply uses_bind with (n := (if (i =? 0)%nat then 0 else 12)%nat); [intros s; apply IH; exact Hc'|destruct (i =? 0)%nat; [reflexivity|apply uses_helper]]|].
    rewrite Hc. replace (i + 1 =? 0)%nat with false by (symmetry; apply Nat.eqb_neq; lia). cbn [length]. destruct (i =? 0)%nat; lia.
  Qed.
  Lemma chunks_lengths {A} k : (0 < k)%nat -> forall m fuel (l : list A), length l = (m * k)%nat -> (m <= fuel)%nat -> length (chunks_exact fuel k l) = m /\ Forall (fun c => length c = k) (chunks_exact fuel k l).
  Proof.
    intros Hk. induction m as [|m IH]; intros fuel l Hl Hf.
    - destruct fuel; cbn [chunks_exact]; [auto|]. destruct (Nat.ltb_spec (length l) k) as [_|H]; [auto|cbn in Hl; lia].
    - destruct fuel as [|fuel]; [lia|]. cbn [chunks_exact]. destruct (Nat.ltb_spec (length l) k) as [H|_]; [cbn [Nat.mul] in Hl; lia|].
      destruct (IH fuel (skipn k l)) as [I1 I2]; [rewrite skipn_length, Hl; cbn [Nat.mul]; lia|lia|]. cbn [length]. split; [lia|]. constructor; [|exact I2]. rewrite firstn_length, Hl. cbn [Nat.mul]. lia.
  Qed.
  Lemma uses_batched M L (sl : SLParams C) sum vars ws r : countable sl -> (0 < L)%nat -> length vars = (M * L)%nat ->
    uses (single_level_batched M sl sum vars ws r) (batched_halves M L (windows (S := S))).
  Proof.
    intros [Ht Hw] HL Hl. unfold single_level_batched, single_level_batched_from. destruct (Nat.eqb_spec M 0) as [->|HM]; [exact I|]. rewrite Hl, Nat.mul_comm, Nat.div_mul by exact HM.
    destruct (Nat.eqb_spec L 0) as [|_]; [lia|]. cbn [orb]. destruct (chunks_lengths L HL M (L * M) vars ltac:(lia) ltac:(nia)) as [N1 N2].
    eapply uses_eq; [apply uses_bind with (m := 0%nat); [intros; reflexivity|]; apply uses_bind; [|apply uses_batched_loop; eassumption]; intros s; cbv zeta; apply uses_rerand; assumption|].
    rewrite N1. cbn [Nat.eqb]. unfold batched_halves. lia.
  Qed.
End LevelCosts.

Section LeafCosts.
  Context {F0 F1 : PField} {P1 : SWCurve F0 F1}.
  Lemma uses_leaves_loop enc (prm : SLParams P1) sel wits n : countable prm -> forall chunks i, Forall (fun c => length c = n) chunks -> uses (leaves_loop enc prm sel wits i chunks) (length chunks * level_halves n (windows (S := F1))).
  Proof.
    intros Hc. induction chunks as [|c chunks IH]; intros i H; cbn [leaves_loop]; [reflexivity|]. apply Forall_inv_tail in H as H'. apply Forall_inv in H.
    apply uses_unwrap. intros R. apply uses_unwrap. intros wit. cbn [length Nat.mul]. apply uses_bind; [intros _; apply IH; exact H'|]. rewrite <- H. apply uses_single. exact Hc.
  Qed.
  Lemma uses_leaves M L enc (prm : SLParams P1) sel wits vars : countable prm -> (0 < L)%nat -> length vars = (M * L)%nat -> uses (leaves_gadget M enc prm sel wits vars) (M * level_halves L (windows (S := F1))).
  Proof.
    intros Hc HL Hl. unfold leaves_gadget. destruct (Nat.eqb_spec M 0) as [->|HM]; [exact I|]. rewrite Hl, Nat.mul_comm, Nat.div_mul by exact HM. destruct (Nat.eqb_spec L 0) as [|_]; [lia|]. cbn [orb].
    destruct (chunks_lengths L HL M (L * M) vars ltac:(lia) ltac:(nia)) as [N1 N2]. eapply uses_eq; [apply uses_leaves_loop; eassumption|]. rewrite N1. reflexivity.
  Qed.
End LeafCosts.

(** ** Paths *)
(** number of variables of a level's children (no code modelled) *)
Definition src_size {F : Field} {V : VSpace F} (lv : VLevel V) : nat := match vl_src lv with inl xs => length xs | inr (d, _) => d end.
(** the level takes [n] half multipliers (no code modelled) *)
Definition level_uses {F : Field} {V : VSpace F} (lv : VLevel V) (n : nat) : Prop := forall vars, length vars = src_size lv -> uses (vl_gadget lv vars) n.
Lemma verify_levels_uses {F : Field} {V : VSpace F} (E : TrEnv V) : forall lvs ns (t t' : VState V), Forall2 level_uses lvs ns -> verify_levels E t lvs = Some t' ->
  (2 * v_num t' + spare t = 2 * v_num t + spare t' + list_sum ns)%nat.
Proof.
  induction lvs as [|lv lvs IH]; intros ns t t' Hn Hv; cbn [verify_levels] in Hv.
  - inversion Hn; subst. apply Some_inj in Hv. subst. cbn. lia.
  - inversion Hn as [|? n ? ns' H1 H2]; subst. destruct (verify_level E t lv) as [t1|] eqn:E1; [|discriminate]. cbn [opt_bind] in Hv. apply (IH _ _ _ H2) in Hv.
    assert (K : (2 * v_num t1 + spare t = 2 * v_num t + spare t1 + n)%nat).
    { unfold verify_level in E1. unfold level_uses, src_size in H1. destruct (vl_src lv) as [xs|[d c]].
      - destruct (vrun E _ t) as [[t2 a]|] eqn:R; [|discriminate]. cbn [opt_bind fst] in E1. apply Some_inj in E1. subst t2. eapply vrun_uses; [|exact R]. apply H1. apply map_length.
      - unfold v_commit_vec in E1. cbn [fst snd] in E1. destruct (vrun E _ _) as [[t2 a]|] eqn:R; [|discriminate]. cbn [opt_bind fst] in E1. apply Some_inj in E1. subst t2.
        eapply vrun_uses in R; [unfold spare in *; cbn in R; exact R|]. apply H1. rewrite !map_length, seq_length. reflexivity. }
    cbn. change (fold_right Init.Nat.add 0 ns')%nat with (list_sum ns'). lia.
Qed.
Lemma list_sum_repeat n k : list_sum (repeat n k) = (k * n)%nat.
Proof. induction k as [|k IH]; cbn; [reflexivity|]. fold (list_sum (repeat n k)). lia. Qed.

(** all children arrays of the root have [L] entries (no code modelled) *)
Definition root_width {F0 F1 : PField} {P0 : SWCurve F1 F0} {P1 : SWCurve F0 F1} (L : nat) (t : CurveTree P0 P1) : Prop :=
  match t with TEven (Branch _ cs _ _) => length cs = L | TOdd (Branch _ cs _ _) => length cs = L | _ => True end.

Section PathCosts.
  Context {F0 F1 : PField} {P0 : SWCurve F1 F0} {P1 : SWCurve F0 F1}.
  Variables (E0 : TrEnv P0) (E1 : TrEnv P1) (enc0 : P0 -> bytes) (enc1 : P1 -> bytes).

  Lemma from_set_width fuel L M (prm : SRParams P0 P1) set height t : from_set fuel L M prm set height = TOk t -> root_width L t.
  Proof.
    intros Ht. destruct (from_set_ok _ _ _ _ _ _ _ Ht) as (_ & d & Hd & _). destruct t as [n|n]; destruct Hd as (_ & H & _); destruct n as [cm cs h e|c]; try exact I; destruct d as [|d]; try contradiction;
      destruct H as (_ & _ & _ & ch & -> & Hl & _); cbn [root_width]; rewrite app_length, map_length, repeat_length; lia.
  Qed.
  Lemma x_length {A B : PField} {Q : SWCurve A B} {R} (cs : list (option (Node Q R))) delta ti xs : x_coordinates cs delta ti = Some xs -> length xs = length cs.
  Proof. unfold x_coordinates. intros H. apply all_some_spec, Forall2_len in H. rewrite map_length in H. congruence. Qed.
  Lemma root_even_length L prm (t : CurveTree P0 P1) ti xs : root_width L t -> root_xs_even prm t ti = Some xs -> length xs = L.
  Proof. unfold root_xs_even. destruct t as [n|n]; destruct n as [cm cs h e|c]; try discriminate. cbn [root_width]. intros <-. apply x_length. Qed.
  Lemma root_odd_length L prm (t : CurveTree P0 P1) ti xs : root_width L t -> root_xs_odd prm t ti = Some xs -> length xs = L.
  Proof. unfold root_xs_odd. destruct t as [n|n]; destruct n as [cm cs h e|c]; try discriminate. cbn [root_width]. intros <-. apply x_length. Qed.

  Lemma all_some_imap {A B} (f : nat -> A -> option B) (P : B -> nat -> Prop) (g : nat -> nat) : (forall i a b, f i a = Some b -> P b (g i)) ->
    forall l i r, all_some (imap f i l) = Some r -> Forall2 P r (map g (seq i (length l))).
  Proof.
    intros H. induction l as [|a l IH]; intros i r R; cbn [imap all_some] in R.
    - apply Some_inj in R. subst. constructor.
    - destruct (f i a) as [b|] eqn:Ef; [|discriminate]. cbn [opt_bind] in R. destruct (all_some _) as [r'|] eqn:Er; [|discriminate]. cbn [opt_bind] in R. apply Some_inj in R. subst r.
      cbn [length seq map]. constructor; [apply (H _ _ _ Ef)|apply IH, Er].
  Qed.
  Lemma sum_const n : forall k i, list_sum (map (fun _ : nat => n) (seq i k)) = (k * n)%nat.
  Proof. induction k as [|k IH]; intros i; cbn [seq map]; [reflexivity|]. cbn. fold (list_sum (map (fun _ : nat => n) (seq (S i) k))). rewrite IH. lia. Qed.

  Lemma even_gadget_size L prm t p (t0 t0' : VState P0) : root_width L t -> countable (odd_p prm) -> even_gadget E0 enc1 L prm t p t0 = Some t0' ->
    (2 * v_num t0' + spare t0 = 2 * v_num t0 + spare t0' + length (pa_even p) * level_halves L (windows (S := F1)))%nat.
  Proof.
    intros Hw Hc H. unfold even_gadget in H. destruct (root_is_odd p) as [o|]; [|discriminate]. cbn [opt_bind] in H. destruct (even_levels enc1 L prm t p o) as [lvs|] eqn:El; [|discriminate]. cbn [opt_bind] in H.
    rewrite <- (sum_const (level_halves L (windows (S := F1))) (length (pa_even p)) 0). eapply verify_levels_uses; [|exact H]. unfold even_levels in El. eapply all_some_imap; [|exact El].
    intros i c lv Hlv. cbv beta in Hlv. destruct ((i =? 0)%nat && negb o)%bool.
    - destruct (root_xs_even prm t 0) as [xs|] eqn:Ex; [|discriminate]. cbn [option_map opt_bind] in Hlv. destruct (nth_error (pa_odd p) _) as [ch|]; [|discriminate]. cbn [opt_bind] in Hlv. apply Some_inj in Hlv. subst lv.
      intros vars Hl. cbn [src_size vl_src vl_gadget] in *. rewrite (root_even_length _ _ _ _ _ Hw Ex) in Hl. rewrite <- Hl. apply uses_single. exact Hc.
    - cbn [opt_bind] in Hlv. destruct (nth_error (pa_odd p) _) as [ch|]; [|discriminate]. cbn [opt_bind] in Hlv. apply Some_inj in Hlv. subst lv.
      intros vars Hl. cbn [src_size vl_src vl_gadget] in *. rewrite <- Hl. apply uses_single. exact Hc.
  Qed.
  Lemma odd_gadget_size L prm t p (t1 t1' : VState P1) : root_width L t -> countable (even_p prm) -> odd_gadget E1 enc0 L prm t p t1 = Some t1' ->
    (2 * v_num t1' + spare t1 = 2 * v_num t1 + spare t1' + length (pa_odd p) * level_halves L (windows (S := F0)))%nat.
  Proof.
    intros Hw Hc H. unfold odd_gadget in H. destruct (root_is_odd p) as [o|]; [|discriminate]. cbn [opt_bind] in H. destruct (odd_levels enc0 L prm t p o) as [lvs|] eqn:El; [|discriminate]. cbn [opt_bind] in H.
    rewrite <- (sum_const (level_halves L (windows (S := F0))) (length (pa_odd p)) 0). eapply verify_levels_uses; [|exact H]. unfold odd_levels in El. eapply all_some_imap; [|exact El].
    intros i c lv Hlv. cbv beta in Hlv. destruct (if (i <? length (pa_odd p) - 1)%nat then _ else _) as [ch|]; [|discriminate]. cbn [opt_bind] in Hlv. destruct ((i =? 0)%nat && o)%bool.
    - destruct (root_xs_odd prm t 0) as [xs|] eqn:Ex; [|discriminate]. cbn [option_map opt_bind] in Hlv. apply Some_inj in Hlv. subst lv.
      intros vars Hl. cbn [src_size vl_src vl_gadget] in *. rewrite (root_odd_length _ _ _ _ _ Hw Ex) in Hl. rewrite <- Hl. apply uses_single. exact Hc.
    - cbn [opt_bind] in Hlv. apply Some_inj in Hlv. subst lv. intros vars Hl. cbn [src_size vl_src vl_gadget] in *. rewrite <- Hl. apply uses_single. exact Hc.
  Qed.

  (** ** Batched paths *)
  Lemma concat_width {A} n : forall (ls : list (list A)), Forall (fun l => length l = n) ls -> length (concat ls) = (length ls * n)%nat.
  Proof. induction ls as [|l ls IH]; intros H; cbn [concat length]; [reflexivity|]. rewrite app_length, IH by (eapply Forall_inv_tail, H). rewrite (Forall_inv H). lia. Qed.

  Lemma m_even_size L M (prm : SRParams P0 P1) t (p : MPath P0 P1) (lvs : list (VLevel P0)) o (t0 t0' : VState P0) : (0 < L)%nat -> countable (odd_p prm) -> m_even_vlevels L M prm t p o = Some lvs -> verify_levels E0 t0 lvs = Some t0' ->
    (2 * v_num t0' + spare t0 = 2 * v_num t0 + spare t0' + length (mp_even p) * batched_halves M L (windows (S := F1)))%nat.
  Proof.
    intros HL Hc El H. rewrite <- (sum_const (batched_halves M L (windows (S := F1))) (length (mp_even p)) 0). eapply verify_levels_uses; [|exact H]. unfold m_even_vlevels in El. eapply all_some_imap; [|exact El].
    intros i c lv Hlv. cbv beta in Hlv. destruct (if ((i =? 0)%nat && negb o)%bool then _ else _) as [src|]; [|discriminate]. cbn [opt_bind] in Hlv. unfold guard in Hlv. destruct (src_len M L src) eqn:Es; [|discriminate].
    destruct (nth_error (mp_odd p) _) as [ch|]; [|discriminate]. cbn [opt_bind] in Hlv. apply Some_inj in Hlv. subst lv. intros vars Hl. unfold src_size in Hl. cbn [vl_src vl_gadget] in *. apply uses_batched; [exact Hc|exact HL|].
    rewrite Hl. unfold src_len in Es. destruct src as [xs|[d q]]; apply Nat.eqb_eq in Es; exact Es.
  Qed.
  Lemma m_odd_size L M (prm : SRParams P0 P1) t (p : MPath P0 P1) (lvs : list (VLevel P1)) o (t1 t1' : VState P1) : (0 < L)%nat -> countable (even_p prm) -> m_odd_vlevels enc0 L M prm t p o = Some lvs -> verify_levels E1 t1 lvs = Some t1' -> mp_odd p <> [] ->
    (2 * v_num t1' + spare t1 = 2 * v_num t1 + spare t1' + ((length (mp_odd p) - 1) * batched_halves M L (windows (S := F0)) + M * level_halves L (windows (S := F0))))%nat.
  Proof.
    intros HL Hc El H Hne. set (n := length (mp_odd p)) in *. assert (Hn : (0 < n)%nat) by (unfold n; destruct (mp_odd p); [congruence|cbn; lia]).
    assert (Hs : forall k i, (i + k = n - 1)%nat -> list_sum (map (fun j => if (j <? n - 1)%nat then batched_halves M L (windows (S := F0)) else M * level_halves L (windows (S := F0)))%nat (seq i (S k))) = (k * batched_halves M L (windows (S := F0)) + M * level_halves L (windows (S := F0)))%nat).
    { induction k as [|k IH]; intros i Hi.
      - cbn [seq map]. replace (i <? n - 1)%nat with false by (symmetry; apply Nat.ltb_ge; lia). cbn. lia.
      - rewrite <- cons_seq. cbn [map]. replace (i <? n - 1)%nat with true by (symmetry; apply Nat.ltb_lt; lia). change (list_sum (?a :: ?r)) with (a + list_sum r)%nat. rewrite IH by lia. lia. }
    rewrite <- (Hs (n - 1)%nat 0%nat ltac:(lia)). replace (S (n - 1)) with n by lia. eapply verify_levels_uses; [|exact H]. unfold m_odd_vlevels in El.
    apply (all_some_imap _ level_uses (fun j => if (j <? n - 1)%nat then batched_halves M L (windows (S := F0)) else (M * level_halves L (windows (S := F0)))%nat)) in El; [exact El|].
    intros i c lv Hlv. cbv beta in Hlv. destruct (if ((i =? 0)%nat && o)%bool then _ else _) as [src|]; [|discriminate]. cbn [opt_bind] in Hlv. unfold guard in Hlv. destruct (src_len M L src) eqn:Es; [|discriminate].
    assert (Hd : match src with inl xs => length xs | inr (d, _) => d end = (M * L)%nat) by (unfold src_len in Es; destruct src as [xs|[d q]]; apply Nat.eqb_eq in Es; exact Es).
    fold n in Hlv. destruct (i <? n - 1)%nat.
    - destruct (nth_error (mp_even p) _) as [ch|]; [|discriminate]. cbn [opt_bind] in Hlv. apply Some_inj in Hlv. subst lv. intros vars Hl. unfold src_size in Hl. cbn [vl_src vl_gadget] in *. apply uses_batched; [exact Hc|exact HL|congruence].
    - apply Some_inj in Hlv. subst lv. intros vars Hl. unfold src_size in Hl. cbn [vl_src vl_gadget] in *. apply uses_leaves; [exact Hc|exact HL|congruence].
  Qed.
End PathCosts.

(** ** Vector commitments *)
Section VecCosts.
  Context {F : Field} {V : VSpace F} (E : TrEnv V).
  (** dimensions of the vector commitments of a state (no code modelled) *)
  Definition dims (t : VState V) : list nat := map snd (v_vec t).
  (** dimension of the vector commitment a level makes (no code modelled) *)
  Definition src_dims (lv : VLevel V) : list nat := match vl_src lv with inl _ => [] | inr (d, _) => [d] end.
  Lemma vrun_dims {A} (p : Prog F A) t t' a : vrun E p t = Some (t', a) -> dims t' = dims t.
  Proof. intros R. destruct (vrun_frame E _ _ _ _ _ R) as (Ev & _). unfold dims. rewrite Ev. reflexivity. Qed.
  Lemma levels_dims : forall lvs (t t' : VState V), verify_levels E t lvs = Some t' -> dims t' = dims t ++ flat_map src_dims lvs.
  Proof.
    induction lvs as [|lv lvs IH]; intros t t' H; cbn [verify_levels] in H.
    - apply Some_inj in H. subst. cbn [flat_map]. rewrite app_nil_r. reflexivity.
    - destruct (verify_level E t lv) as [t1|] eqn:E1; [|discriminate]. cbn [opt_bind] in H. cbn [flat_map]. rewrite (IH _ _ H), app_assoc. f_equal. unfold verify_level in E1. unfold src_dims. destruct (vl_src lv) as [xs|[d c]].
      + destruct (vrun E _ t) as [[t2 a]|] eqn:R; [|discriminate]. cbn [opt_bind fst] in E1. apply Some_inj in E1. subst t2. rewrite (vrun_dims _ _ _ _ R), app_nil_r. reflexivity.
      + unfold v_commit_vec in E1. cbn [fst snd] in E1. destruct (vrun E _ _) as [[t2 a]|] eqn:R; [|discriminate]. cbn [opt_bind fst] in E1. apply Some_inj in E1. subst t2. rewrite (vrun_dims _ _ _ _ R).
        unfold dims. cbn [v_vec]. rewrite map_app. reflexivity.
  Qed.
  Lemma dims_size t : Forall (fun d => (d <= v_num t)%nat) (dims t) -> v_size t = v_num t.
  Proof.
    unfold dims, v_size. generalize (v_num t). induction (v_vec t) as [|cd l IH]; intros k H; cbn [fold_left map] in *; [reflexivity|]. inversion H; subst. rewrite Nat.max_r by assumption. apply IH. assumption.
  Qed.
  Lemma flat_dims L : forall lvs ns, Forall2 (fun lv n => src_dims lv = repeat L n) lvs ns -> flat_map src_dims lvs = repeat L (list_sum ns).
  Proof. induction 1 as [|lv n lvs ns H _ IH]; cbn; [reflexivity|]. fold (list_sum ns). rewrite repeat_app, H, IH. reflexivity. Qed.
  Lemma sum_but_first (z : bool) : forall k, list_sum (map (fun i => if ((i =? 0)%nat && z)%bool then 0%nat else 1%nat) (seq 0 k)) = (if z then k - 1 else k)%nat.
  Proof.
    assert (H : forall k i, (0 < i)%nat -> list_sum (map (fun i => if ((i =? 0)%nat && z)%bool then 0%nat else 1%nat) (seq i k)) = k).
    { induction k as [|k IH]; intros i Hi; cbn [seq map]; [reflexivity|]. replace (i =? 0)%nat with false by (symmetry; apply Nat.eqb_neq; lia). cbn [andb]. change (list_sum (?a :: ?r)) with (a + list_sum r)%nat. rewrite IH by lia. reflexivity. }
    destruct k as [|k]; cbn [seq map]; [destruct z; reflexivity|]. change (list_sum (?a :: ?r)) with (a + list_sum r)%nat. rewrite H by lia. cbn [Nat.eqb andb]. destruct z; lia.
  Qed.
End VecCosts.

Section PathVecs.
  Context {F0 F1 : PField} {P0 : SWCurve F1 F0} {P1 : SWCurve F0 F1}.
  Variables (E0 : TrEnv P0) (E1 : TrEnv P1) (enc0 : P0 -> bytes) (enc1 : P1 -> bytes).
  Lemma even_gadget_dims L prm t p (t0 t0' : VState P0) o : root_is_odd p = Some o -> even_gadget E0 enc1 L prm t p t0 = Some t0' ->
    dims t0' = dims t0 ++ repeat L (if o then length (pa_even p) else length (pa_even p) - 1)%nat.
  Proof.
    intros Ho H. unfold even_gadget in H. rewrite Ho in H. cbn [opt_bind] in H. destruct (even_levels enc1 L prm t p o) as [lvs|] eqn:El; [|discriminate]. cbn [opt_bind] in H.
    rewrite (levels_dims _ _ _ _ H). f_equal. unfold even_levels in El. apply (all_some_imap _ (fun lv n => src_dims lv = repeat L n) (fun i => if ((i =? 0)%nat && negb o)%bool then 0%nat else 1%nat)) in El.
    - rewrite (flat_dims _ _ _ El), sum_but_first. destruct o; reflexivity.
    - intros i c lv Hlv. cbv beta in Hlv. destruct ((i =? 0)%nat && negb o)%bool.
      + destruct (root_xs_even prm t 0) as [xs|]; [|discriminate]. cbn [option_map opt_bind] in Hlv. destruct (nth_error (pa_odd p) _) as [ch|]; [|discriminate]. cbn [opt_bind] in Hlv. apply Some_inj in Hlv. subst lv. reflexivity.
      + cbn [opt_bind] in Hlv. destruct (nth_error (pa_odd p) _) as [ch|]; [|discriminate]. cbn [opt_bind] in Hlv. apply Some_inj in Hlv. subst lv. reflexivity.
  Qed.
  Lemma odd_gadget_dims L prm t p (t1 t1' : VState P1) o : root_is_odd p = Some o -> odd_gadget E1 enc0 L prm t p t1 = Some t1' ->
    dims t1' = dims t1 ++ repeat L (if o then length (pa_odd p) - 1 else length (pa_odd p))%nat.
  Proof.
    intros Ho H. unfold odd_gadget in H. rewrite Ho in H. cbn [opt_bind] in H. destruct (odd_levels enc0 L prm t p o) as [lvs|] eqn:El; [|discriminate]. cbn [opt_bind] in H.
    rewrite (levels_dims _ _ _ _ H). f_equal. unfold odd_levels in El. apply (all_some_imap _ (fun lv n => src_dims lv = repeat L n) (fun i => if ((i =? 0)%nat && o)%bool then 0%nat else 1%nat)) in El.
    - rewrite (flat_dims _ _ _ El), sum_but_first. destruct o; reflexivity.
    - intros i c lv Hlv. cbv beta in Hlv. destruct (if (i <? length (pa_odd p) - 1)%nat then _ else _) as [ch|]; [|discriminate]. cbn [opt_bind] in Hlv. destruct ((i =? 0)%nat && o)%bool.
      + destruct (root_xs_odd prm t 0) as [xs|]; [|discriminate]. cbn [option_map opt_bind] in Hlv. apply Some_inj in Hlv. subst lv. reflexivity.
      + cbn [opt_bind] in Hlv. apply Some_inj in Hlv. subst lv. reflexivity.
  Qed.
  Lemma m_even_dims L M (prm : SRParams P0 P1) t (p : MPath P0 P1) (lvs : list (VLevel P0)) o (t0 t0' : VState P0) : m_even_vlevels L M prm t p o = Some lvs -> verify_levels E0 t0 lvs = Some t0' ->
    dims t0' = dims t0 ++ repeat (L * M)%nat (if o then length (mp_even p) else length (mp_even p) - 1)%nat.
  Proof.
    intros El H. rewrite (levels_dims _ _ _ _ H). f_equal. unfold m_even_vlevels in El. apply (all_some_imap _ (fun lv n => src_dims lv = repeat (L * M)%nat n) (fun i => if ((i =? 0)%nat && negb o)%bool then 0%nat else 1%nat)) in El.
    - rewrite (flat_dims _ _ _ El), sum_but_first. destruct o; reflexivity.
    - intros i c lv Hlv. cbv beta in Hlv. destruct ((i =? 0)%nat && negb o)%bool.
      + destruct (m_root_xs_even M prm t) as [xs|]; [|discriminate]. cbn [option_map opt_bind] in Hlv. unfold guard in Hlv. destruct (src_len _ _ _); [|discriminate]. destruct (nth_error (mp_odd p) _) as [ch|]; [|discriminate]. cbn [opt_bind] in Hlv. apply Some_inj in Hlv. subst lv. reflexivity.
      + cbn [opt_bind] in Hlv. unfold guard in Hlv. destruct (src_len _ _ _); [|discriminate]. destruct (nth_error (mp_odd p) _) as [ch|]; [|discriminate]. cbn [opt_bind] in Hlv. apply Some_inj in Hlv. subst lv. reflexivity.
  Qed.
  Lemma m_odd_dims L M (prm : SRParams P0 P1) t (p : MPath P0 P1) (lvs : list (VLevel P1)) o (t1 t1' : VState P1) : m_odd_vlevels enc0 L M prm t p o = Some lvs -> verify_levels E1 t1 lvs = Some t1' ->
    dims t1' = dims t1 ++ repeat (L * M)%nat (if o then length (mp_odd p) - 1 else length (mp_odd p))%nat.
  Proof.
    intros El H. rewrite (levels_dims _ _ _ _ H). f_equal. unfold m_odd_vlevels in El. apply (all_some_imap _ (fun lv n => src_dims lv = repeat (L * M)%nat n) (fun i => if ((i =? 0)%nat && o)%bool then 0%nat else 1%nat)) in El.
    - rewrite (flat_dims _ _ _ El), sum_but_first. destruct o; reflexivity.
    - intros i c lv Hlv. cbv beta in Hlv. destruct ((i =? 0)%nat && o)%bool.
      + destruct (m_root_xs_odd M prm t) as [xs|]; [|discriminate]. cbn [option_map opt_bind] in Hlv. unfold guard in Hlv. destruct (src_len _ _ _); [|discriminate]. destruct (i <? _)%nat; [destruct (nth_error (mp_even p) _) as [ch|]; [|discriminate]; cbn [opt_bind] in Hlv|]; apply Some_inj in Hlv; subst lv; reflexivity.
      + cbn [opt_bind] in Hlv. unfold guard in Hlv. destruct (src_len _ _ _); [|discriminate]. destruct (i <? _)%nat; [destruct (nth_error (mp_even p) _) as [ch|]; [|discriminate]; cbn [opt_bind] in Hlv|]; apply Some_inj in Hlv; subst lv; reflexivity.
  Qed.

  (** ** Completed paths *)
  Lemma half_counts a b h : (a = b \/ a + 1 = b)%nat -> (a + b = h)%nat -> a = (h / 2)%nat /\ b = ((h + 1) / 2)%nat.
  Proof.
    intros [<-|<-] <-.
    - replace (a + a)%nat with (a * 2)%nat by lia. rewrite Nat.div_mul by lia. rewrite Nat.add_comm, Nat.div_add by lia. cbn. lia.
    - replace (a + (a + 1) + 1)%nat with ((a + 1) * 2)%nat by lia. rewrite Nat.div_mul by lia. replace (a + (a + 1))%nat with (1 + a * 2)%nat by lia. rewrite Nat.div_add by lia. cbn. lia.
  Qed.
  Lemma completed_counts (t : CurveTree P0 P1) p p' h : verification_commitments t p = Some p' -> (length (pa_even p) + length (pa_odd p) + 1 = h)%nat ->
    length (pa_even p') = (h / 2)%nat /\ length (pa_odd p') = ((h + 1) / 2)%nat /\ root_is_odd p' = Some (Nat.odd h).
  Proof.
    unfold verification_commitments, guard. destruct t as [ct|ct].
    - destruct (Nat.eqb_spec (length (pa_even p) + 1) (length (pa_odd p))) as [Hl|]; [|discriminate]. destruct (n_commitment ct 0); [|discriminate]. cbn [opt_bind]. intros H <-. apply Some_inj in H. subst p'. unfold root_is_odd. cbn [pa_even pa_odd length].
      destruct (half_counts (length (pa_even p) + 1) (length (pa_odd p)) (length (pa_even p) + length (pa_odd p) + 1) ltac:(left; exact Hl) ltac:(lia)) as [E1' E2']. split; [lia|]. split; [exact E2'|].
      rewrite <- Hl. replace (S (length (pa_even p)) + 1 =? length (pa_even p) + 1)%nat with false by (symmetry; apply Nat.eqb_neq; lia). replace (S (length (pa_even p)) =? length (pa_even p) + 1)%nat with true by (symmetry; apply Nat.eqb_eq; lia). cbn [guard].
      replace (length (pa_even p) + (length (pa_even p) + 1) + 1)%nat with (0 + 2 * (length (pa_even p) + 1))%nat by lia. rewrite Nat.odd_add_mul_2. reflexivity.
    - destruct (Nat.eqb_spec (length (pa_even p)) (length (pa_odd p))) as [Hl|]; [|discriminate]. destruct (n_commitment ct 0); [|discriminate]. cbn [opt_bind]. intros H <-. apply Some_inj in H. subst p'. unfold root_is_odd. cbn [pa_even pa_odd length].
      destruct (half_counts (length (pa_even p)) (length (pa_odd p) + 1) (length (pa_even p) + length (pa_odd p) + 1) ltac:(right; lia) ltac:(lia)) as [E1' E2']. split; [exact E1'|]. split; [lia|].
      rewrite <- Hl. replace (length (pa_even p) + 1 =? S (length (pa_even p)))%nat with true by (symmetry; apply Nat.eqb_eq; lia).
      replace (length (pa_even p) + length (pa_even p) + 1)%nat with (1 + 2 * length (pa_even p))%nat by lia. rewrite Nat.odd_add_mul_2. reflexivity.
  Qed.
  Lemma m_completed_counts M (t : CurveTree P0 P1) (p p' : MPath P0 P1) h : m_verification_commitments M t p = Some p' -> (length (mp_even p) + length (mp_odd p) + 1 = h)%nat ->
    length (mp_even p') = (h / 2)%nat /\ length (mp_odd p') = ((h + 1) / 2)%nat /\ m_root_is_odd p' = Some (Nat.odd h).
  Proof.
    unfold m_verification_commitments, guard. destruct t as [ct|ct].
    - destruct (Nat.eqb_spec (length (mp_even p) + 1) (length (mp_odd p))) as [Hl|]; [|discriminate]. destruct (sum_roots M ct); [|discriminate]. cbn [opt_bind]. intros H <-. apply Some_inj in H. subst p'. unfold m_root_is_odd. cbn [mp_even mp_odd length].
      destruct (half_counts (length (mp_even p) + 1) (length (mp_odd p)) (length (mp_even p) + length (mp_odd p) + 1) ltac:(left; exact Hl) ltac:(lia)) as [E1' E2']. split; [lia|]. split; [exact E2'|].
      rewrite <- Hl. replace (S (length (mp_even p)) + 1 =? length (mp_even p) + 1)%nat with false by (symmetry; apply Nat.eqb_neq; lia). replace (S (length (mp_even p)) =? length (mp_even p) + 1)%nat with true by (symmetry; apply Nat.eqb_eq; lia). cbn [guard].
      replace (length (mp_even p) + (length (mp_even p) + 1) + 1)%nat with (0 + 2 * (length (mp_even p) + 1))%nat by lia. rewrite Nat.odd_add_mul_2. reflexivity.
    - destruct (Nat.eqb_spec (length (mp_even p)) (length (mp_odd p))) as [Hl|]; [|discriminate]. destruct (sum_roots M ct); [|discriminate]. cbn [opt_bind]. intros H <-. apply Some_inj in H. subst p'. unfold m_root_is_odd. cbn [mp_even mp_odd length].
      destruct (half_counts (length (mp_even p)) (length (mp_odd p) + 1) (length (mp_even p) + length (mp_odd p) + 1) ltac:(right; lia) ltac:(lia)) as [E1' E2']. split; [exact E1'|]. split; [lia|].
      rewrite <- Hl. replace (length (mp_even p) + 1 =? S (length (mp_even p)))%nat with true by (symmetry; apply Nat.eqb_eq; lia).
      replace (length (mp_even p) + length (mp_even p) + 1)%nat with (1 + 2 * length (mp_even p))%nat by lia. rewrite Nat.odd_add_mul_2. reflexivity.
  Qed.
End PathVecs.

(** ** From the state of the verifier to the proof of the prover *)
Section Capacity.
  Context {F : Field} {V : VSpace F} (E : TrEnv V) (pc : PedersenGens V) (g : BPGens V).
  Lemma session_size tr (s : PState F) (t : VState V) : session E pc g tr s t -> p_size s = v_size t /\ length (p_vec s) = length (dims t).
  Proof.
    intros Hs. destruct (session_agree E pc g tr s t Hs) as [_ Ha]. unfold dims, p_size, v_size. rewrite (ag_vec _ _ _ _ Ha), (ag_num _ _ _ _ Ha), !map_length. split; [|reflexivity].
    generalize (v_num t). induction (p_vec s) as [|bv l IH]; intros k; cbn [map fold_left snd]; [reflexivity|]. rewrite Nat.max_comm. apply IH.
  Qed.
  Lemma honest_issued (s : PState F) : honest s -> Forall (Forall (fun x => p_var s (fst x) <> None)) (p_cs s).
  Proof. intros [_ H]. eapply Forall_impl; [|exact H]. intros lc [Hl _]. eapply Forall_impl; [|exact Hl]. intros x [Hx _]. exact Hx. Qed.
  (** The prover succeeds exactly when there are enough generators. *)
  Lemma capacity_exact dbg rnd tr (s : PState F) (t : VState V) n : session E pc g tr s t -> honest s -> p_def s = [] -> gens_wf g -> good_challenges E -> (length (dims t) <= 17)%nat -> v_size t = n ->
    ((next_power_of_two n <= gens_capacity g)%nat -> exists pf trf, r1cs_prove E dbg rnd pc g s = Some (Ok (pf, trf))) /\
    ((gens_capacity g < next_power_of_two n)%nat -> r1cs_prove E dbg rnd pc g s = Some (Err InvalidGeneratorsLength)).
  Proof.
    intros Hs Hh Hd Hw Hg Hl <-. destruct (session_size _ _ _ Hs) as [Es El]. rewrite <- Es. split; intros Hc.
    - destruct (session_agree E pc g tr s t Hs) as [Hi _]. apply prove_total_1; try assumption; [lia|apply honest_issued, Hh].
    - apply prove_capacity_err; assumption.
  Qed.
End Capacity.
Lemma fresh_num {F : Field} {V : VSpace F} tr (t : VState V) n : (2 * v_num t + spare (v_new (V := V) tr) = 2 * v_num (v_new (V := V) tr) + spare t + n)%nat -> v_num t = ((n + 1) / 2)%nat.
Proof.
  cbn [v_new v_num v_pend spare]. assert (spare t <= 1)%nat by (unfold spare; destruct (v_pend t); lia). intros H1.
  apply Nat.div_unique with (r := (1 - spare t)%nat); lia.
Qed.
Lemma sl_new_countable {F : Field} {S : PField} {C : SWCurve F S} bp pc (delta : C) sl : sl_new bp pc delta = Some sl -> countable sl.
Proof.
  intros H. split.
  - unfold sl_new in H. destruct (build_tables (pcB_blinding pc)) as [ts|] eqn:Et; [|discriminate]. cbn [opt_bind] in H. apply Some_inj in H. subst sl. eapply tables_rows, Et.
  - destruct (sl_new_good _ _ _ _ H) as [Hg _]. eapply good_windows, (proj2 (proj2 Hg)).
Qed.
