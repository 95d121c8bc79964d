(** * What the verifiers write into their transcripts: lemmas *)
From Verif Require Export Coin.
From Verif Require Import UtilProofs SelPath CSProofs.
Local Open Scope F_scope.

(** A program that neither appends messages nor draws challenges (callbacks registered for the
    second phase are not run before the proof is read). *)
Fixpoint quiet {F : Field} {A} (p : Prog F A) : Prop :=
  match p with
  | PRet _ | PPanic => True
  | PMul _ _ k => forall v, quiet (k v)
  | PAlloc _ k => forall v, quiet (k v)
  | PAllocMul _ k => forall v, quiet (k v)
  | PConstrain _ k => quiet k
  | PAppend _ _ _ => False
  | PMetrics k => forall m, quiet (k m)
  | PChallenge _ _ => False
  | PSpecify _ k => quiet k
  end.
Section Quiet.
  Context {F : Field}.
  Lemma quiet_bind {A B} (p : Prog F A) (f : A -> Prog F B) : quiet p -> (forall a, quiet (f a)) -> quiet (pbind p f).
  Proof. intros Hp Hf. induction p; cbn in *; auto. Qed.
  Lemma quiet_palloc {A} a (k : Var -> Prog F A) : (forall v, quiet (k v)) -> quiet (palloc a k).
  Proof. intros H [v|e]; [apply H|exact I]. Qed.
  Lemma quiet_punwrap {A B} (o : option A) (k : A -> Prog F B) : (forall a, quiet (k a)) -> quiet (punwrap o k).
  Proof. intros H. destruct o; [apply H|exact I]. Qed.
  Lemma quiet_select (x : LC F) xs : quiet (select x xs).
  Proof.
    destruct xs as [|x0 xs]; [exact I|]. cbn [select]. generalize (lc_sub x0 x). induction xs as [|y xs IH]; intros pr; cbn; [exact I|]. intros [[a b] c]. apply IH.
  Qed.
  Lemma quiet_range dbg (v : LC F) n : quiet (range_proof dbg v None n).
  Proof.
    unfold range_proof. generalize (1 : F), 0%nat. revert v. induction n as [|n IH]; intros v e i; cbn; [exact I|]. intros [[[a b] c]|r]; cbn; [apply IH|exact I].
  Qed.
  Lemma quiet_curve_check (x y : LC F) a b : quiet (curve_check x y a b).
  Proof. unfold curve_check. intros [[? ?] ?] [[? ?] ?] [[? ?] ?]. exact I. Qed.
  Lemma quiet_rows {A} (rows : list (list F)) sa s0 s1 s2 (k : list (LC F) -> Prog F A) : (forall l, quiet (k l)) -> forall acc, quiet (lookup_rows rows sa s0 s1 s2 acc k).
  Proof.
    intros Hk. induction rows as [|u rows IH]; intros acc; cbn [lookup_rows]; [apply Hk|]. unfold single_membership.
    repeat match goal with |- quiet (match ?x with _ => _ end) => destruct x end; try exact I. cbn. repeat intros [[? ?] ?]. apply IH.
  Qed.
  Lemma quiet_lookup (table : list (list F)) i : quiet (lookup_bits table i).
  Proof.
    unfold lookup_bits. intros [[[b1 b2] ba]|e]; [|exact I]. unfold bit. intros [[[b bi] z]|e]; [|exact I]. cbn. intros [[? ?] ?]. intros [[? ?] ?]. apply quiet_rows. intros l. exact I.
  Qed.
  Lemma quiet_incomplete (p : CurveAddition F) : quiet (incomplete_curve_addition p).
  Proof. unfold incomplete_curve_addition. apply quiet_palloc. intros v. cbn. repeat intros [[? ?] ?]. exact I. Qed.
  Lemma quiet_checked (p : CurveAddition F) inv : quiet (checked_curve_addition p inv).
  Proof. unfold checked_curve_addition. apply quiet_palloc. intros v. unfold not_zero. intros [[? ?] ?]. cbn [quiet]. apply quiet_incomplete. Qed.
End Quiet.
Section QuietCurve.
  Context {F : Field} {S : PField} {C : SWCurve F S}.
  Lemma quiet_rerand tied (A0 : C) tables (cm : PRep C) (x y : LC F) r : quiet (re_randomize_from tied A0 tables cm x y r).
  Proof.
    unfold re_randomize_from. apply quiet_bind.
    - assert (K : forall k i acc ax ay bits, quiet (rerand_loop (C := C) tied (windows (S := S)) tables (option_map pf_repr r) k i acc ax ay bits)); [|apply K].
      induction k as [|k IH]; intros i acc ax ay bits; cbn [rerand_loop]; [exact I|]. apply quiet_punwrap. intros table. apply quiet_punwrap. intros [wit acc'].
      unfold rerand_iter. apply quiet_bind; [apply quiet_lookup|]. intros [[bs rows]|e]; [|exact I].
      destruct rows as [|xt [|yt [|z rows]]]; try exact I. apply quiet_palloc. intros xv. apply quiet_palloc. intros yv.
      destruct (1 <? i)%nat; [destruct (i =? _)%nat; apply quiet_bind; auto using quiet_checked, quiet_incomplete|]. destruct tied; [|apply IH]. cbn. apply IH.
    - intros [[[acc ax] ay] bits]. apply quiet_bind; [|intros; exact I]. unfold rerand_final. destruct (pr_w cm); [|apply quiet_checked].
      apply quiet_punwrap. intros [? ?]. apply quiet_punwrap. intros [? ?]. apply quiet_punwrap. intros ?. apply quiet_punwrap. intros ?. apply quiet_checked.
  Qed.
  Lemma quiet_helper (l r : PRep C) : quiet (checked_helper l r).
  Proof.
    unfold checked_helper. assert (H : forall (p : CurveAddition F) inv out, quiet (pbind (checked_curve_addition p inv) (fun _ => PRet (mkPRep (ca_xo p) (ca_yo p) out : PRep C)))).
    { intros. apply quiet_bind; [apply quiet_checked|]. intros; exact I. }
    destruct (pr_w l), (pr_w r); repeat first [apply quiet_punwrap; intros [? ?] | apply quiet_punwrap; intros ?]; apply quiet_palloc; intros xv; apply quiet_palloc; intros yv; apply H.
  Qed.
  Lemma quiet_batched M (sl : SLParams C) ch vars ws r : quiet (single_level_batched M sl ch vars ws r).
  Proof.
    unfold single_level_batched, single_level_batched_from. apply quiet_bind; [|intros; exact I]. destruct (_ || _)%bool; [exact I|]. apply quiet_bind; [|intros; apply quiet_rerand].
    generalize (mkPRep (lc_var (F := F) One) (lc_var One) (option_map (fun _ => v0) ws : option C)) as sum. generalize 0%nat as i. generalize (chunks_exact (length vars) (length vars / M) vars) as chunks.
    induction chunks as [|c chunks IH]; intros i sum; cbn [batched_loop]; [exact I|]. apply quiet_punwrap. intros w. apply quiet_palloc. intros xv. apply quiet_palloc. intros yv.
    apply quiet_bind; [apply quiet_select|]. intros _. apply quiet_bind; [apply quiet_curve_check|]. intros _. apply quiet_bind; [destruct (i =? 0)%nat; [exact I|apply quiet_helper]|]. intros s. apply IH.
  Qed.
End QuietCurve.

Section Emits.
  Context {F : Field} {V : VSpace F} (E : TrEnv V).
  (** the verifier running the program appends exactly these events *)
  Definition emits {A} (p : Prog F A) (ev : list Event) : Prop := forall s s' a, vrun E p s = Some (s', a) -> v_tr s' = v_tr s ++ ev.
  Lemma quiet_emits {A} (p : Prog F A) : quiet p -> emits p [].
  Proof.
    intros H s s' a. revert s. induction p as [A a0|A|A l r k IH|A x k IH|A x k IH|A c k IH|A l m k IH|A k IH|A l k IH|A cb IHcb k IH]; intros s R; cbn [vrun quiet] in *.
    - injection R as <- <-. rewrite app_nil_r. reflexivity.
    - discriminate R.
    - destruct (v_multiply s l r) as [s1 v] eqn:Em. unfold v_multiply in Em. injection Em as <- <-. apply IH in R; [exact R|apply H].
    - destruct (v_allocate s x) as [s1 v] eqn:Em. unfold v_allocate in Em. destruct (v_pend s); injection Em as <- <-; (apply IH in R; [exact R|apply H]).
    - destruct (v_allocate_multiplier s x) as [s1 v] eqn:Em. unfold v_allocate_multiplier in Em. injection Em as <- <-. apply IH in R; [exact R|apply H].
    - apply IH in R; [exact R|apply H].
    - contradiction.
    - apply IH in R; [exact R|apply H].
    - contradiction.
    - apply IH in R; [exact R|apply H].
  Qed.
  Lemma emits_bind {A B} (p : Prog F A) (f : A -> Prog F B) e1 e2 : emits p e1 -> (forall a, emits (f a) e2) -> emits (pbind p f) (e1 ++ e2).
  Proof.
    intros Hp Hf s s' b R. rewrite vrun_bind in R. destruct (vrun E p s) as [[s1 a]|] eqn:R1; [|discriminate R]. cbn [opt_bind] in R.
    rewrite (Hf a _ _ _ R), (Hp _ _ _ R1), app_assoc. reflexivity.
  Qed.
  (** events of a level: the commitment to the parent, then those of the gadget *)
  Definition src_events (src : list F + nat * V) : list Event := match src with inl _ => [] | inr (_, c) => [Msg "V" (enc_point E c)] end.
  Lemma levels_events (ev : VLevel V -> list Event) : forall lvs t t', (forall lv vars, In lv lvs -> emits (vl_gadget lv vars) (ev lv)) -> verify_levels E t lvs = Some t' ->
    v_tr t' = v_tr t ++ concat (map (fun lv => src_events (vl_src lv) ++ ev lv) lvs).
  Proof.
    induction lvs as [|lv lvs IH]; intros t t' H R; cbn [verify_levels map concat] in *; [injection R as <-; rewrite app_nil_r; reflexivity|].
    destruct (verify_level E t lv) as [t1|] eqn:R1; [|discriminate R]. cbn [opt_bind] in R. rewrite (IH t1 t'); [|intros; apply H; right; assumption|exact R].
    unfold verify_level in R1. rewrite !app_assoc. f_equal. destruct (vl_src lv) as [xs|[d c]]; cbn [src_events].
    - destruct (vrun E _ t) as [[s1 []]|] eqn:R2; [|discriminate R1]. cbn [opt_bind fst] in R1. injection R1 as <-. rewrite (H lv _ (or_introl eq_refl) _ _ _ R2), app_nil_r. reflexivity.
    - destruct (vrun E _ (fst _)) as [[s1 []]|] eqn:R2; [|discriminate R1]. cbn [opt_bind fst] in R1. injection R1 as <-. rewrite (H lv _ (or_introl eq_refl) _ _ _ R2). reflexivity.
  Qed.
End Emits.
Lemma single_emits {F : Field} {S : PField} {C : SWCurve F S} {V : VSpace F} (E : TrEnv V) enc (sl : SLParams C) R vars wit r : emits E (single_level enc sl R vars wit r) [Msg "rerandomized_child" (enc R)].
Proof.
  unfold single_level, single_level_from. intros s s' a H. cbn [pbind vrun] in H.
  assert (Q : forall k, quiet k -> @emits _ _ E unit k []) by (intros; apply quiet_emits; assumption).
  apply (Q _) in H; [rewrite app_nil_r in H; exact H|]. apply quiet_bind; [|intros; exact I]. apply quiet_palloc. intros xv. apply quiet_bind; [apply quiet_select|]. intros _. apply quiet_palloc. intros yv.
  apply quiet_bind; [apply quiet_curve_check|]. intros _. apply quiet_rerand.
Qed.

(** ** Whole paths *)
Section Paths.
  Context {F0 F1 : PField} {P0 : SWCurve F1 F0} {P1 : SWCurve F0 F1}.
  (** The events of a sequence of levels of one curve: the commitment to the parent (if it is
      not the public root), then the re-randomised child. *)
  Fixpoint level_events (E : TrEnv P0) (enc : P1 -> bytes) (parents : list (option P0)) (children : list P1) : list Event :=
    match parents, children with
    | c :: parents, ch :: children => match c with None => [] | Some c => [Msg "V" (enc_point E c)] end ++ Msg "rerandomized_child" (enc ch) :: level_events E enc parents children
    | _, _ => []
    end.
End Paths.
Section PathEvents.
  Context {F0 F1 : PField} {P0 : SWCurve F1 F0} {P1 : SWCurve F0 F1}.
  Variables (E0 : TrEnv P0) (E1 : TrEnv P1) (enc0 : P0 -> bytes) (enc1 : P1 -> bytes).
  (** the parents on each curve, the public root being [None] *)
  Definition even_parents (t : CurveTree P0 P1) (p : Path P0 P1) : list (option P0) := match t with TEven _ => None :: map Some (pa_even p) | TOdd _ => map Some (pa_even p) end.
  (* vocabulary of specifications and proofs, no code modelled *)
  Definition odd_parents (t : CurveTree P0 P1) (p : Path P0 P1) : list (option P1) := match t with TEven _ => map Some (pa_odd p) | TOdd _ => None :: map Some (pa_odd p) end.
  (* vocabulary of specifications and proofs, no code modelled *)
  Definition even_events t p := level_events E0 enc1 (even_parents t p) (pa_odd p).
  (* vocabulary of specifications and proofs, no code modelled *)
  Definition odd_events t p := level_events E1 enc0 (odd_parents t p) (pa_even p ++ [pa_selected p]).
  (* vocabulary of specifications and proofs, no code modelled *)
  Definition path_shape (t : CurveTree P0 P1) (p : Path P0 P1) : Prop := match t with TEven _ => length (pa_even p) + 1 = length (pa_odd p) | TOdd _ => length (pa_even p) = length (pa_odd p) end%nat.

  Lemma levels_tr {A} (E : TrEnv P0) (enc : P1 -> bytes) (prm : SLParams P1) (f : nat -> A -> option (VLevel P0)) : forall (l : list A) (parents : list (option P0)) (children : list P1) i lvs t t',
    all_some (imap f i l) = Some lvs -> verify_levels E t lvs = Some t' -> length parents = length l ->  length children = length l ->
    (forall k x lv, nth_error l k = Some x -> f (i + k)%nat x = Some lv -> exists ch src, nth_error children k = Some ch /\
       lv = mkVL src (fun vars => single_level enc prm ch vars None None) /\ nth_error parents k = Some match src with inl _ => None | inr (_, c) => Some c end) ->
    v_tr t' = v_tr t ++ level_events E enc parents children.
  Proof.
    induction l as [|x l IH]; intros [|pa parents] [|ch children] i lvs t t' Hl R L1 L2 Hf; try discriminate L1; try discriminate L2; cbn [imap all_some level_events] in *.
    - injection Hl as <-. cbn in R. injection R as <-. rewrite app_nil_r. reflexivity.
    - destruct (f i x) as [lv|] eqn:Ef; [|discriminate Hl]. cbn [opt_bind] in Hl. destruct (all_some _) as [lvs'|] eqn:Ea; [|discriminate Hl]. cbn [opt_bind] in Hl. injection Hl as <-.
      cbn [verify_levels] in R. destruct (verify_level E t lv) as [t1|] eqn:R1; [|discriminate R]. cbn [opt_bind] in R.
      destruct (Hf 0%nat x lv eq_refl ltac:(rewrite Nat.add_0_r; exact Ef)) as (ch' & src & Hch & -> & Hp). cbn [nth_error] in Hch, Hp. injection Hch as <-. injection Hp as ->.
      rewrite (IH parents children (S i) lvs' t1 t' Ea R); [|injection L1; auto|injection L2; auto|].
      2:{ intros k y lv Hk Hy. apply (Hf (S k) y lv Hk). rewrite Nat.add_succ_r. exact Hy. }
      rewrite (app_assoc (v_tr t)). change (Msg ?a ?b :: ?r) with ([Msg a b] ++ r). rewrite !app_assoc. f_equal.
      unfold verify_level in R1. cbn [vl_src vl_gadget] in R1. destruct src as [xs|[d c]].
      + destruct (vrun E _ t) as [[s1 []]|] eqn:R2; [|discriminate R1]. cbn [opt_bind fst] in R1. injection R1 as <-. rewrite (single_emits E _ _ _ _ _ _ _ _ _ R2), app_nil_r. reflexivity.
      + destruct (vrun E _ (fst _)) as [[s1 []]|] eqn:R2; [|discriminate R1]. cbn [opt_bind fst] in R1. injection R1 as <-. rewrite (single_emits E _ _ _ _ _ _ _ _ _ R2). reflexivity.
  Qed.
End PathEvents.
Section PathEvents2.
  Context {F0 F1 : PField} {P0 : SWCurve F1 F0} {P1 : SWCurve F0 F1}.
  Variables (E0 : TrEnv P0) (E1 : TrEnv P1) (enc0 : P0 -> bytes) (enc1 : P1 -> bytes).
  Implicit Types (t : CurveTree P0 P1) (p : Path P0 P1).
  Lemma commitments_shape t p p' : verification_commitments t p = Some p' -> path_shape t p /\ pa_selected p' = pa_selected p /\ root_is_odd p' = Some (match t with TEven _ => false | TOdd _ => true end) /\
    match t with TEven _ => pa_odd p' = pa_odd p /\ exists c, pa_even p' = c :: pa_even p | TOdd _ => pa_even p' = pa_even p /\ exists c, pa_odd p' = c :: pa_odd p end.
  Proof.
    unfold verification_commitments, path_shape, root_is_odd. destruct t as [n|n]; unfold guard at 1; match goal with |- (if (?a =? ?b)%nat then _ else _) = _ -> _ => destruct (Nat.eqb_spec a b) as [Hl|]; [|discriminate] end; intros H;
      destruct (n_commitment n 0) as [c|]; try discriminate H; cbn [opt_bind] in H; injection H as <-; cbn [pa_even pa_odd pa_selected length]; (split; [exact Hl|]); (split; [reflexivity|]).
    - split; [|eauto]. destruct (Nat.eqb_spec (S (length (pa_even p)) + 1) (length (pa_odd p))); [lia|]. destruct (Nat.eqb_spec (S (length (pa_even p))) (length (pa_odd p))); [reflexivity|lia].
    - split; [|eauto]. destruct (Nat.eqb_spec (length (pa_even p) + 1) (S (length (pa_odd p)))); [reflexivity|lia].
  Qed.
  Lemma even_gadget_tr L prm t p p' (t0 t0' : VState P0) : verification_commitments t p = Some p' -> even_gadget E0 enc1 L prm t p' t0 = Some t0' -> v_tr t0' = v_tr t0 ++ even_events E0 enc1 t p.
  Proof.
    intros Hp R. destruct (commitments_shape _ _ _ Hp) as (Hs & Hsel & Hr & Hc). unfold even_gadget in R. rewrite Hr in R. cbn [opt_bind] in R.
    destruct (even_levels _ _ _ _ _ _) as [lvs|] eqn:El; [|discriminate R]. cbn [opt_bind] in R. unfold even_levels in El. unfold even_events.
    destruct t as [n|n]; cbn [path_shape even_parents] in *.
    - destruct Hc as (Ho & c & He). eapply levels_tr; [exact El|exact R| | |]; rewrite ?He, ?Ho; cbn [length]; rewrite ?map_length; try lia.
      intros [|k] x lv Hk Hf; cbn [Nat.add Nat.eqb andb negb] in Hf.
      + destruct (root_xs_even _ _ _) as [xs|]; [|discriminate Hf]. cbn [option_map opt_bind] in Hf. destruct (nth_error (pa_odd p) 0) as [ch|]; [|discriminate Hf]. cbn [opt_bind] in Hf. injection Hf as <-. exists ch, (inl xs). auto.
      + cbn [opt_bind] in Hf. destruct (nth_error (pa_odd p) (S k)) as [ch|]; [|discriminate Hf]. cbn [opt_bind] in Hf. injection Hf as <-. exists ch, (inr (L, x)). split; [reflexivity|]. split; [reflexivity|].
        cbn [nth_error] in Hk |- *. rewrite nth_error_map, Hk. reflexivity.
    - destruct Hc as (He & c & Ho). eapply levels_tr; [exact El|exact R| | |]; rewrite ?He, ?Ho; rewrite ?map_length; try lia.
      intros k x lv Hk Hf. rewrite Bool.andb_false_r in Hf. cbn [opt_bind] in Hf. rewrite Nat.add_0_l, Nat.add_1_r in Hf. cbn [nth_error] in Hf. destruct (nth_error (pa_odd p) k) as [ch|]; [|discriminate Hf]. cbn [opt_bind] in Hf. injection Hf as <-.
      exists ch, (inr (L, x)). split; [reflexivity|]. split; [reflexivity|]. rewrite nth_error_map, Hk. reflexivity.
  Qed.
  Lemma snoc_nth {A} (l : list A) x k : (k <= length l)%nat -> nth_error (l ++ [x]) k = if (k <? length l)%nat then nth_error l k else Some x.
  Proof.
    intros H. destruct (Nat.ltb_spec k (length l)); [apply nth_error_app1; assumption|]. rewrite nth_error_app2 by lia. replace (k - length l)%nat with 0%nat by lia. reflexivity.
  Qed.
  Lemma odd_gadget_tr L prm t p p' (t1 t1' : VState P1) : verification_commitments t p = Some p' -> odd_gadget E1 enc0 L prm t p' t1 = Some t1' -> v_tr t1' = v_tr t1 ++ odd_events E1 enc0 t p.
  Proof.
    intros Hp R. destruct (commitments_shape _ _ _ Hp) as (Hs & Hsel & Hr & Hc). unfold odd_gadget in R. rewrite Hr in R. cbn [opt_bind] in R.
    destruct (odd_levels _ _ _ _ _ _) as [lvs|] eqn:El; [|discriminate R]. cbn [opt_bind] in R. unfold odd_levels in El. rewrite Hsel in El. unfold odd_events.
    destruct t as [n|n]; cbn [path_shape odd_parents] in *.
    - destruct Hc as (Ho & c & He). rewrite He, Ho in El. eapply levels_tr; [exact El|exact R| | |]; rewrite ?map_length, ?app_length; cbn [length]; try lia.
      intros k x lv Hk Hf. rewrite Bool.andb_false_r in Hf. rewrite Nat.add_0_l, Nat.add_1_r in Hf. cbn [nth_error] in Hf.
      assert (Hlt : (k < length (pa_odd p))%nat) by (apply nth_error_Some; rewrite Hk; discriminate).
      assert (Ech : (if (k <? length (pa_odd p) - 1)%nat then nth_error (pa_even p) k else Some (pa_selected p)) = nth_error (pa_even p ++ [pa_selected p]) k).
      { rewrite snoc_nth by lia. replace (length (pa_odd p) - 1)%nat with (length (pa_even p)) by lia. reflexivity. }
      rewrite Ech in Hf. destruct (nth_error (pa_even p ++ _) k) as [ch|]; [|discriminate Hf]. cbn [opt_bind] in Hf. injection Hf as <-.
      exists ch, (inr (L, x)). split; [reflexivity|]. split; [reflexivity|]. rewrite nth_error_map, Hk. reflexivity.
    - destruct Hc as (He & c & Ho). rewrite He, Ho in El. eapply levels_tr; [exact El|exact R| | |]; cbn [length]; rewrite ?map_length, ?app_length; cbn [length]; try lia.
      intros k x lv Hk Hf. rewrite Nat.add_0_l in Hf. cbn [length] in Hf.
      assert (Hlt : (k < S (length (pa_odd p)))%nat) by (change (S (length (pa_odd p))) with (length (c :: pa_odd p)); apply nth_error_Some; rewrite Hk; discriminate).
      assert (Ech : (if (k <? S (length (pa_odd p)) - 1)%nat then nth_error (pa_even p) k else Some (pa_selected p)) = nth_error (pa_even p ++ [pa_selected p]) k).
      { rewrite snoc_nth by lia. replace (S (length (pa_odd p)) - 1)%nat with (length (pa_even p)) by lia. reflexivity. }
      rewrite Ech in Hf. destruct (nth_error (pa_even p ++ _) k) as [ch|]; [|discriminate Hf]. cbn [opt_bind] in Hf. destruct k as [|k]; cbn [Nat.eqb andb] in Hf.
      + destruct (root_xs_odd _ _ _) as [xs|]; [|discriminate Hf]. cbn [option_map opt_bind] in Hf. injection Hf as <-. exists ch, (inl xs). auto.
      + cbn [opt_bind] in Hf. injection Hf as <-. exists ch, (inr (L, x)). split; [reflexivity|]. split; [reflexivity|]. cbn [nth_error] in Hk |- *. rewrite nth_error_map, Hk. reflexivity.
  Qed.
  Lemma sr_verify_tr dbg L prm t p (t0 : VState P0) (t1 : VState P1) (a0 : VState P0) (a1 : VState P1) R : sr_verify E0 E1 enc0 enc1 dbg L prm t p t0 t1 = Some (a0, a1, R) ->
    path_shape t p /\ v_tr a0 = v_tr t0 ++ even_events E0 enc1 t p /\ v_tr a1 = v_tr t1 ++ odd_events E1 enc0 t p.
  Proof.
    unfold sr_verify. destruct (verification_commitments t p) as [p'|] eqn:Hp; [|discriminate]. cbn [opt_bind]. destruct (_ && _)%bool; [discriminate|].
    destruct (even_gadget _ _ _ _ _ _ _) as [x0|] eqn:R0; [|discriminate]. cbn [opt_bind]. destruct (odd_gadget _ _ _ _ _ _ _) as [x1|] eqn:R1; [|discriminate]. cbn [opt_bind]. intros H. injection H as <- <- <-.
    split; [apply (commitments_shape _ _ _ Hp)|]. split; [eapply even_gadget_tr; eassumption|eapply odd_gadget_tr; eassumption].
  Qed.
End PathEvents2.

(** ** Reading the points back *)
Section Inj.
  Context {F0 F1 : PField} {P0 : SWCurve F1 F0} {P1 : SWCurve F0 F1}.
  Variables (E : TrEnv P0) (enc : P1 -> bytes).
  Hypothesis (HE : forall P Q, enc_point E P = enc_point E Q -> P = Q) (Henc : forall P Q, enc P = enc Q -> P = Q).
  (** The rest of the transcript does not start with the events of a level. *)
  Definition ends (X : list Event) : Prop := forall m1 m2 Z, X <> Msg "V" m1 :: Msg "rerandomized_child" m2 :: Z.
  Lemma events_inj : forall (a a' : list P0) b b' X Y, length a = length b -> length a' = length b' -> length a = length a' \/ (ends X /\ ends Y) ->
    level_events E enc (map Some a) b ++ X = level_events E enc (map Some a') b' ++ Y -> a = a' /\ b = b' /\ X = Y.
  Proof.
    induction a as [|x a IH]; intros [|x' a'] [|y b] [|y' b'] X Y L1 L2 HX H; try discriminate L1; try discriminate L2; cbn [map level_events app] in H.
    - auto.
    - destruct HX as [HX|[HX HY]]; [discriminate HX|]. exfalso. exact (HX _ _ _ H).
    - destruct HX as [HX|[HX HY]]; [discriminate HX|]. exfalso. exact (HY _ _ _ (eq_sym H)).
    - injection H as H1 H2 H. apply HE in H1. apply Henc in H2. destruct (IH a' b b' X Y) as (-> & -> & ->); auto; [destruct HX as [HX|HX]; [left; injection HX; auto|right; exact HX]|]. subst. auto.
  Qed.
  Lemma events_inj_top : forall (a a' : list P0) b b' X Y, (length a + 1 = length b)%nat -> (length a' + 1 = length b')%nat -> length a = length a' \/ (ends X /\ ends Y) ->
    level_events E enc (None :: map Some a) b ++ X = level_events E enc (None :: map Some a') b' ++ Y -> a = a' /\ b = b' /\ X = Y.
  Proof.
    intros a a' [|y b] [|y' b'] X Y L1 L2 HX H; cbn [length] in L1, L2; try lia. cbn [level_events app] in H. injection H as H2 H. apply Henc in H2.
    destruct (events_inj a a' b b' X Y) as (-> & -> & ->); auto; try lia. subst. auto.
  Qed.
End Inj.

(** ** Batched paths *)
Section BatchEvents.
  Context {F0 F1 : PField} {P0 : SWCurve F1 F0} {P1 : SWCurve F0 F1}.
  Variables (E0 : TrEnv P0) (E1 : TrEnv P1) (enc0 : P0 -> bytes).
  Implicit Types (t : CurveTree P0 P1) (p : MPath P0 P1).
  (* vocabulary of specifications and proofs, no code modelled *)
  Definition src_size {F : Field} {V : VSpace F} (src : list F + nat * V) : nat := match src with inl xs => length xs | inr (d, _) => d end.
  Lemma levels_tr_gen {A} {F : Field} {V : VSpace F} (E : TrEnv V) (f : nat -> A -> option (VLevel V)) : forall (l : list A) (evs : list (list Event)) i lvs (t t' : VState V),
    all_some (imap f i l) = Some lvs -> verify_levels E t lvs = Some t' -> length evs = length l ->
    (forall k x lv, nth_error l k = Some x -> f (i + k)%nat x = Some lv -> exists e, nth_error evs k = Some (src_events E (vl_src lv) ++ e) /\
       forall vars, length vars = src_size (vl_src lv) -> emits E (vl_gadget lv vars) e) ->
    v_tr t' = v_tr t ++ concat evs.
  Proof.
    induction l as [|x l IH]; intros [|ev evs] i lvs t t' Hl R L1 Hf; try discriminate L1; cbn [imap all_some concat] in *.
    - injection Hl as <-. cbn in R. injection R as <-. rewrite app_nil_r. reflexivity.
    - destruct (f i x) as [lv|] eqn:Ef; [|discriminate Hl]. cbn [opt_bind] in Hl. destruct (all_some _) as [lvs'|] eqn:Ea; [|discriminate Hl]. cbn [opt_bind] in Hl. injection Hl as <-.
      cbn [verify_levels] in R. destruct (verify_level E t lv) as [t1|] eqn:R1; [|discriminate R]. cbn [opt_bind] in R.
      destruct (Hf 0%nat x lv eq_refl ltac:(rewrite Nat.add_0_r; exact Ef)) as (e & Hev & He). cbn [nth_error] in Hev. injection Hev as ->.
      rewrite (IH evs (S i) lvs' t1 t' Ea R); [|injection L1; auto|].
      2:{ intros k y lv' Hk Hy. apply (Hf (S k) y lv' Hk). rewrite Nat.add_succ_r. exact Hy. }
      rewrite (app_assoc (v_tr t)). f_equal. unfold verify_level in R1. destruct (vl_src lv) as [xs|[d c]]; cbn [src_events src_size app] in *.
      + destruct (vrun E _ t) as [[s1 []]|] eqn:R2; [|discriminate R1]. cbn [opt_bind fst] in R1. injection R1 as <-. rewrite (He (map lc_const xs) (map_length _ _) _ _ _ R2). reflexivity.
      + destruct (vrun E _ (fst _)) as [[s1 []]|] eqn:R2; [|discriminate R1]. cbn [opt_bind fst] in R1. injection R1 as <-. 
        assert (Hlen : length (map (lc_var (F := F)) (snd (v_commit_vec E t d c))) = d) by (cbn [v_commit_vec snd]; rewrite !map_length, seq_length; reflexivity).
        rewrite (He _ Hlen _ _ _ R2). cbn [v_commit_vec fst v_tr]. unfold append_point, append_message. rewrite <- app_assoc. reflexivity.
  Qed.
  Lemma chunks_length {A} (k : nat) : (0 < k)%nat -> forall m fuel (l : list A), length l = (m * k)%nat -> (m <= fuel)%nat -> length (chunks_exact fuel k l) = m.
  Proof.
    intros Hk. induction m as [|m IH]; intros fuel l Hl Hf.
    - destruct fuel; cbn [chunks_exact]; [reflexivity|]. destruct (Nat.ltb_spec (length l) k); [reflexivity|lia].
    - destruct fuel as [|fuel]; [lia|]. cbn [chunks_exact]. destruct (Nat.ltb_spec (length l) k); [nia|]. cbn [length]. rewrite IH; [reflexivity|rewrite skipn_length; nia|lia].
  Qed.
  (* vocabulary of specifications and proofs, no code modelled *)
  Definition V_events {F : Field} {V : VSpace F} (E : TrEnv V) (cs : list V) : list Event := map (fun c => Msg "V" (enc_point E c)) cs.
  (* vocabulary of specifications and proofs, no code modelled *)
  Definition leaf_events (sel : list P0) : list Event := map (fun R => Msg "rerandomized_child" (enc0 R)) sel.
  Lemma leaves_emits (prm : SLParams P0) (sel : list P0) : forall (chunks : list (list (LC F1))) i, emits E1 (leaves_loop enc0 prm sel None i chunks) (leaf_events (firstn (length chunks) (skipn i sel))).
  Proof.
    induction chunks as [|c chunks IH]; intros i; cbn [leaves_loop length].
    - rewrite firstn_O. intros s s' a R. cbn in R. injection R as <- <-. cbn. rewrite app_nil_r. reflexivity.
    - destruct (nth_error sel i) as [R|] eqn:Hi; cbn [punwrap]; [|intros s s' a Hr; discriminate Hr].
      assert (Es : skipn i sel = R :: skipn (i + 1) sel).
      { clear -Hi. revert i Hi. induction sel as [|x sel IH]; intros [|i] H; cbn in *; try discriminate H; [congruence|]. apply IH. exact H. }
      rewrite Es. cbn [firstn]. change (leaf_events (R :: ?r)) with ([Msg "rerandomized_child" (enc0 R)] ++ leaf_events r). apply emits_bind; [apply single_emits|]. intros _. apply IH.
  Qed.
  Lemma leaves_gadget_emits (prm : SLParams P0) M L sel (vars : list (LC F1)) : length sel = M -> length vars = (M * L)%nat -> emits E1 (leaves_gadget M enc0 prm sel None vars) (leaf_events sel).
  Proof.
    intros Hs Hv. unfold leaves_gadget. destruct (_ || _)%bool eqn:Eb; [intros s s' a R; discriminate R|]. apply Bool.orb_false_iff in Eb as [E1' E2]. apply Nat.eqb_neq in E1', E2.
    rewrite Hv in E2 |- *. rewrite Nat.mul_comm, Nat.div_mul in E2 |- * by exact E1'. pose proof (leaves_emits prm sel (chunks_exact (L * M) L vars) 0) as H. cbn [skipn] in H.
    rewrite (chunks_length L ltac:(lia) M), <- Hs, firstn_all in H by nia. rewrite <- Hs. exact H.
  Qed.
  Lemma src_len_size {F : Field} {V : VSpace F} M L (src : list F + nat * V) : src_len M L src = true -> src_size src = (M * L)%nat.
  Proof. destruct src as [xs|[d c]]; cbn; apply Nat.eqb_eq. Qed.

  Lemma m_commitments_shape M t p p' : m_verification_commitments M t p = Some p' -> mp_selected p' = mp_selected p /\ m_root_is_odd p' = Some (match t with TEven _ => false | TOdd _ => true end) /\
    match t with TEven _ => (length (mp_even p) + 1 = length (mp_odd p))%nat /\ mp_odd p' = mp_odd p /\ exists c, mp_even p' = c :: mp_even p | TOdd _ => length (mp_even p) = length (mp_odd p) /\ mp_even p' = mp_even p /\ exists c, mp_odd p' = c :: mp_odd p end.
  Proof.
    unfold m_verification_commitments, m_root_is_odd. destruct t as [n|n]; unfold guard at 1;
      match goal with |- (if (?a =? ?b)%nat then _ else _) = _ -> _ => destruct (Nat.eqb_spec a b) as [Hl|]; [|discriminate] end; intros H;
      destruct (sum_roots M n) as [c|]; try discriminate H; cbn [opt_bind] in H; injection H as <-; cbn [mp_even mp_odd mp_selected length]; (split; [reflexivity|]).
    - split; [|eauto]. destruct (Nat.eqb_spec (S (length (mp_even p)) + 1) (length (mp_odd p))); [lia|]. destruct (Nat.eqb_spec (S (length (mp_even p))) (length (mp_odd p))); [reflexivity|lia].
    - split; [|eauto]. destruct (Nat.eqb_spec (length (mp_even p) + 1) (S (length (mp_odd p)))); [reflexivity|lia].
  Qed.
  Lemma concat_singles {A B} (f : A -> B) l : concat (map (fun x => [f x]) l) = map f l.
  Proof. induction l as [|x l IH]; cbn; [reflexivity|]. rewrite IH. reflexivity. Qed.
  Lemma msr_verify_tr dbg L M prm t p (t0 : VState P0) (t1 : VState P1) (a0 : VState P0) (a1 : VState P1) R : length (mp_selected p) = M -> msr_verify E0 E1 enc0 dbg L M prm t p t0 t1 = Some (a0, a1, R) ->
    v_tr a0 = v_tr t0 ++ V_events E0 (mp_even p) /\ v_tr a1 = v_tr t1 ++ V_events E1 (mp_odd p) ++ leaf_events (mp_selected p).
  Proof.
    intros HM. unfold msr_verify. destruct (m_verification_commitments M t p) as [p'|] eqn:Hp; [|discriminate]. cbn [opt_bind]. destruct (_ && _)%bool; [discriminate|].
    destruct (m_commitments_shape _ _ _ _ Hp) as (Hsel & Hr & Hc). rewrite Hr. cbn [opt_bind].
    destruct (m_even_vlevels _ _ _ _ _ _) as [lv0|] eqn:El0; [|discriminate]. cbn [opt_bind]. destruct (verify_levels E0 t0 lv0) as [x0|] eqn:R0; [|discriminate]. cbn [opt_bind].
    destruct (m_odd_vlevels _ _ _ _ _ _ _) as [lv1|] eqn:El1; [|discriminate]. cbn [opt_bind]. destruct (verify_levels E1 t1 lv1) as [x1|] eqn:R1; [|discriminate]. cbn [opt_bind].
    intros H. injection H as <- <- _. unfold m_even_vlevels in El0. unfold m_odd_vlevels in El1. rewrite Hsel in El1.
    destruct t as [n|n].
    - destruct Hc as (Hl & Ho & c & He). rewrite He, Ho in El0, El1. split.
      + replace (V_events E0 (mp_even p)) with (concat ([] :: map (fun c => [Msg "V" (enc_point E0 c)]) (mp_even p))) by exact (concat_singles _ _). eapply levels_tr_gen; [exact El0|exact R0|cbn [length]; rewrite map_length; reflexivity|].
        intros [|k] x lv Hk Hf; cbn [Nat.add Nat.eqb andb negb] in Hf.
        * destruct (m_root_xs_even _ _ _) as [xs|]; [|discriminate Hf]. cbn [option_map opt_bind] in Hf. unfold guard in Hf. destruct (src_len _ _ _); [|discriminate Hf]. destruct (nth_error (mp_odd p) 0) as [ch|]; [|discriminate Hf]. cbn [opt_bind] in Hf. injection Hf as <-.
          exists []. split; [reflexivity|]. intros vars _. apply quiet_emits, quiet_batched.
        * cbn [opt_bind] in Hf. unfold guard in Hf. destruct (src_len _ _ _); [|discriminate Hf]. destruct (nth_error (mp_odd p) (S k)) as [ch|]; [|discriminate Hf]. cbn [opt_bind] in Hf. injection Hf as <-.
          exists []. cbn [nth_error] in Hk |- *. rewrite nth_error_map, Hk. split; [reflexivity|]. intros vars _. apply quiet_emits, quiet_batched.
      + set (n1 := (length (mp_odd p) - 1)%nat) in *.
        assert (Ev : concat (imap (fun i c => [Msg "V" (enc_point E1 c)] ++ if (i <? n1)%nat then [] else leaf_events (mp_selected p)) 0 (mp_odd p)) = V_events E1 (mp_odd p) ++ leaf_events (mp_selected p)).
        { assert (Hpos : (0 < length (mp_odd p))%nat) by lia. clear -Hpos. subst n1. 
          assert (G : forall l i m, (0 < length l)%nat -> (i + length l = m + 1)%nat -> concat (imap (fun i c => [Msg "V" (enc_point E1 c)] ++ if (i <? m)%nat then [] else leaf_events (mp_selected p)) i l) = V_events E1 l ++ leaf_events (mp_selected p)).
          { induction l as [|c l IH]; intros i m Hp Hm; cbn [length] in *; [lia|]. cbn [imap concat V_events map]. destruct l as [|d l].
            - cbn [imap concat map]. destruct (Nat.ltb_spec i m); [cbn in Hm; lia|]. rewrite app_nil_r. reflexivity.
            - rewrite (IH (S i) m) by (cbn [length] in *; lia). destruct (Nat.ltb_spec i m); [|cbn [length] in *; lia]. reflexivity. }
          apply G; lia. }
        rewrite <- Ev. eapply levels_tr_gen; [exact El1|exact R1|apply imap_length|]. intros k x lv Hk Hf. cbn [negb] in Hf; rewrite Bool.andb_false_r in Hf. rewrite Nat.add_0_l in Hf. cbn [opt_bind] in Hf. unfold guard in Hf.
        match type of Hf with context [src_len ?a ?b ?c] => destruct (src_len a b c) eqn:Es; [|discriminate Hf] end. rewrite imap_nth, Hk. cbn [option_map Nat.add]. destruct (k <? n1)%nat.
        * destruct (nth_error (c :: mp_even p) (k + 1)) as [ch|]; [|discriminate Hf]. cbn [opt_bind] in Hf. injection Hf as <-. exists []. split; [reflexivity|]. intros vars _. apply quiet_emits, quiet_batched.
        * injection Hf as <-. exists (leaf_events (mp_selected p)). split; [reflexivity|]. intros vars Hv. cbn [vl_gadget vl_src] in *. eapply leaves_gadget_emits; [exact HM|]. rewrite Hv. apply src_len_size, Es.
    - destruct Hc as (Hl & He & c & Ho). rewrite He, Ho in El0, El1. split.
      + replace (V_events E0 (mp_even p)) with (concat (map (fun c => [Msg "V" (enc_point E0 c)]) (mp_even p))) by exact (concat_singles _ _). eapply levels_tr_gen; [exact El0|exact R0|rewrite map_length; reflexivity|].
        intros k x lv Hk Hf. cbn [negb] in Hf; rewrite Bool.andb_false_r in Hf. cbn [opt_bind] in Hf. unfold guard in Hf. destruct (src_len _ _ _); [|discriminate Hf]. destruct (nth_error (c :: mp_odd p) (0 + k + 1)) as [ch|]; [|discriminate Hf]. cbn [opt_bind] in Hf. injection Hf as <-.
        exists []. rewrite nth_error_map, Hk. split; [reflexivity|]. intros vars _. apply quiet_emits, quiet_batched.
      + cbn [length] in El1. set (n1 := (S (length (mp_odd p)) - 1)%nat) in *.
        set (h := fun (i : nat) (c : P1) => (if (i =? 0)%nat then [] else [Msg "V" (enc_point E1 c)]) ++ if (i <? n1)%nat then [] else leaf_events (mp_selected p)).
        assert (Ev : concat (imap h 0 (c :: mp_odd p)) = V_events E1 (mp_odd p) ++ leaf_events (mp_selected p)).
        { assert (G : forall l i, (0 < i)%nat -> (0 < length l)%nat -> (i + length l = n1 + 1)%nat -> concat (imap h i l) = V_events E1 l ++ leaf_events (mp_selected p)).
          { induction l as [|d l IH]; intros i Hi Hpp Hm; cbn [length] in *; [lia|]. cbn [imap concat V_events map]. unfold h at 1. destruct (Nat.eqb_spec i 0); [lia|]. destruct l as [|d' l].
            - cbn [imap concat map]. destruct (Nat.ltb_spec i n1); [cbn in Hm; lia|]. rewrite app_nil_r. reflexivity.
            - rewrite (IH (S i)) by (cbn [length] in *; lia). destruct (Nat.ltb_spec i n1); [|cbn [length] in *; lia]. reflexivity. }
          cbn [imap concat]. unfold h at 1. cbn [Nat.eqb app]. subst n1. destruct (mp_odd p) as [|d l] eqn:Eo; [cbn; apply app_nil_r|]. destruct (Nat.ltb_spec 0 (S (length (d :: l)) - 1)); [|cbn in *; lia]. apply G; cbn [length]; lia. }
        rewrite <- Ev. eapply levels_tr_gen; [exact El1|exact R1|apply imap_length|]. intros k x lv Hk Hf. rewrite Nat.add_0_l in Hf.
        destruct (if ((k =? 0)%nat && true)%bool then option_map inl (m_root_xs_odd M prm (TOdd n)) else Some (inr ((L * M)%nat, x))) as [src|] eqn:Esrc; [|discriminate Hf]. cbn [opt_bind] in Hf. unfold guard in Hf.
        destruct (src_len M L src) eqn:Es; [|discriminate Hf]. rewrite imap_nth, Hk. cbn [option_map Nat.add]. unfold h.
        assert (Esr : src_events E1 src = if (k =? 0)%nat then [] else [Msg "V" (enc_point E1 x)]).
        { destruct (k =? 0)%nat; cbn [andb] in Esrc; [|injection Esrc as <-; reflexivity]. destruct (m_root_xs_odd _ _ _); [|discriminate Esrc]. cbn in Esrc. injection Esrc as <-. reflexivity. }
        destruct (k <? n1)%nat.
        * destruct (nth_error (mp_even p) k) as [ch|]; [|discriminate Hf]. cbn [opt_bind] in Hf. injection Hf as <-. exists []. cbn [vl_src]. rewrite Esr. split; [reflexivity|]. intros vars _. apply quiet_emits, quiet_batched.
        * injection Hf as <-. exists (leaf_events (mp_selected p)). cbn [vl_src]. rewrite Esr. split; [reflexivity|]. intros vars Hv. cbn [vl_gadget vl_src] in *. eapply leaves_gadget_emits; [exact HM|]. rewrite Hv. apply src_len_size, Es.
  Qed.
End BatchEvents.

(** ** Pours *)
Section PourEvents.
  Context {F0 F1 : PField} {P0 : SWCurve F1 F0} {P1 : SWCurve F0 F1} {FC : Field} {C : VSpace FC}.
  Variables (E0 : TrEnv P0) (E1 : TrEnv P1) (enc0 : P0 -> bytes) (enc1 : P1 -> bytes) (enc_pk : C -> bytes) (sha3_512 : bytes -> bytes).
  (* vocabulary of specifications and proofs, no code modelled *)
  Definition V_event {F : Field} {V : VSpace F} (E : TrEnv V) (c : V) : Event := Msg "V" (enc_point E c).
  (* vocabulary of specifications and proofs, no code modelled *)
  Definition pour_even_events (t : CurveTree P0 P1) (po : Pour P0 P1 C) : list Event :=
    V_event E0 (po_minted0 po) :: V_event E0 (po_minted1 po) ::
    (even_events E0 enc1 t (po_path0 po) ++ [V_event E0 (pa_selected (po_path0 po))]) ++ even_events E0 enc1 t (po_path1 po) ++ [V_event E0 (pa_selected (po_path1 po))].
  (* vocabulary of specifications and proofs, no code modelled *)
  Definition pour_odd_events (t : CurveTree P0 P1) (po : Pour P0 P1 C) : list Event := odd_events E1 enc0 t (po_path0 po) ++ odd_events E1 enc0 t (po_path1 po).
  Lemma mint_tr dbg c (t t' : VState P0) v : verify_mint E0 dbg c t = Some (t', v) -> v_tr t' = v_tr t ++ [V_event E0 c].
  Proof.
    unfold verify_mint. destruct (v_commit_vec E0 t 2 c) as [t1 vars] eqn:Ev. unfold v_commit_vec in Ev. injection Ev as <- <-. cbn [nth_error map seq opt_bind].
    set (t1 := mkV _ _ _ _ _ _ _) in *. destruct (vrun E0 (range_proof dbg _ None 64) t1) as [[t2 res]|] eqn:R; [|discriminate]. cbn [opt_bind]. destruct res as [u|e]; [|discriminate]. intros H. apply Some_inj, pair_inj in H as [<- _].
    apply (quiet_emits E0 _ (quiet_range dbg _ 64)) in R. rewrite app_nil_r in R. exact R.
  Qed.
  Lemma spend_even_tr L prm t pk p p' (t0 t0' : VState P0) v : verification_commitments t p = Some p' -> verify_spend_even (FC := FC) (C := C) E0 enc1 enc_pk sha3_512 L prm t pk p' t0 = Some (t0', v) ->
    v_tr t0' = v_tr t0 ++ even_events E0 enc1 t p ++ [V_event E0 (pa_selected p)].
  Proof.
    intros Hp. unfold verify_spend_even. destruct (even_gadget _ _ _ _ _ _ _) as [x0|] eqn:R0; [|discriminate]. cbn [opt_bind]. destruct (v_commit_vec E0 x0 L (pa_selected p')) as [t1 vars] eqn:Ev. unfold v_commit_vec in Ev. injection Ev as <- <-.
    destruct (nth_error _ 1); [|discriminate]. cbn [opt_bind]. destruct (nth_error _ 0); [|discriminate]. cbn [opt_bind]. intros H. apply Some_inj, pair_inj in H as [<- _]. cbn [v_constrain v_tr].
    unfold append_point, append_message. rewrite (even_gadget_tr _ _ _ _ _ _ _ _ _ Hp R0), (proj1 (proj2 (commitments_shape _ _ _ Hp))), <- app_assoc. reflexivity.
  Qed.
  Lemma pour_even_tr dbg L prm t po p0 p1 (t0 t0' : VState P0) : verification_commitments t (po_path0 po) = Some p0 -> verification_commitments t (po_path1 po) = Some p1 ->
    pour_even_circuit E0 enc1 enc_pk sha3_512 dbg L prm t po p0 p1 t0 = Some t0' -> v_tr t0' = v_tr t0 ++ pour_even_events t po.
  Proof.
    intros H0 H1. unfold pour_even_circuit. destruct (verify_mint E0 dbg (po_minted0 po) t0) as [[x1 mv0]|] eqn:R1; [|discriminate]. cbn [opt_bind].
    destruct (verify_mint E0 dbg (po_minted1 po) x1) as [[x2 mv1]|] eqn:R2; [|discriminate]. cbn [opt_bind].
    destruct (verify_spend_even _ _ _ _ _ _ _ (po_pk0 po) _ _) as [[x3 iv0]|] eqn:R3; [|discriminate]. cbn [opt_bind].
    destruct (verify_spend_even _ _ _ _ _ _ _ (po_pk1 po) _ _) as [[x4 iv1]|] eqn:R4; [|discriminate]. cbn [opt_bind]. intros H. apply Some_inj in H. subst t0'. cbn [v_constrain v_tr].
    rewrite (spend_even_tr _ _ _ _ _ _ _ _ _ H1 R4), (spend_even_tr _ _ _ _ _ _ _ _ _ H0 R3), (mint_tr _ _ _ _ _ R2), (mint_tr _ _ _ _ _ R1). unfold pour_even_events. rewrite <- !app_assoc. reflexivity.
  Qed.
  Lemma pour_odd_tr L prm t (po : Pour P0 P1 C) p0 p1 (t1 t1' : VState P1) : verification_commitments t (po_path0 po) = Some p0 -> verification_commitments t (po_path1 po) = Some p1 ->
    pour_odd_circuit E1 enc0 L prm t p0 p1 t1 = Some t1' -> v_tr t1' = v_tr t1 ++ pour_odd_events t po.
  Proof.
    intros H0 H1. unfold pour_odd_circuit. destruct (odd_gadget E1 enc0 L prm t p0 t1) as [x1|] eqn:R1; [|discriminate]. cbn [opt_bind]. intros R2.
    rewrite (odd_gadget_tr _ _ _ _ _ _ _ _ _ H1 R2), (odd_gadget_tr _ _ _ _ _ _ _ _ _ H0 R1). unfold pour_odd_events. rewrite app_assoc. reflexivity.
  Qed.
End PourEvents.
