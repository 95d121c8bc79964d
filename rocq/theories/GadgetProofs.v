(** * Soundness and completeness of the field-level gadgets, in the program logics *)
From Verif Require Export Gadgets CSLogic CSExact.
From Verif Require Import CSProofs UtilProofs.
Local Open Scope F_scope.

Ltac lcv := repeat first [rewrite lc_val_sub | rewrite lc_val_add | rewrite lc_val_neg | rewrite lc_val_mul | rewrite lc_val_var | rewrite lc_val_var_mul].
Ltac lcv_in H := repeat first [rewrite lc_val_sub in H | rewrite lc_val_add in H | rewrite lc_val_neg in H | rewrite lc_val_mul in H | rewrite lc_val_var in H | rewrite lc_val_var_mul in H].

(** ** The same gadget with and without witness *)
Section Same.
  Context {F : Field}.
  (** As [same_gadget], but results may be related by any relation. *)
  Inductive simg {A B : Type} (R : A -> B -> Prop) : Prog F A -> Prog F B -> Prop :=
  | si_ret a b : R a b -> simg R (PRet a) (PRet b)
  | si_panic p' : simg R PPanic p'
  | si_mul l r k k' : (forall v, simg R (k v) (k' v)) -> simg R (PMul l r k) (PMul l r k')
  | si_alloc x o k k' : (forall v, simg R (k (Ok v)) (k' (Ok v))) -> simg R (PAlloc (Some x) k) (PAlloc o k')
  | si_allocmul x o k k' : (forall v, simg R (k (Ok v)) (k' (Ok v))) -> simg R (PAllocMul (Some x) k) (PAllocMul o k')
  | si_constrain c k k' : simg R k k' -> simg R (PConstrain c k) (PConstrain c k')
  | si_append l m k k' : simg R k k' -> simg R (PAppend l m k) (PAppend l m k')
  | si_metrics k k' : (forall m, simg R (k m) (k' m)) -> simg R (PMetrics k) (PMetrics k').
  Lemma simg_same {A} (p p' : Prog F A) : simg eq p p' -> same_gadget p p'.
  Proof. induction 1; subst; econstructor; eauto. Qed.
  Lemma simg_bind {A B A' B'} (R : A -> B -> Prop) (R' : A' -> B' -> Prop) p p' (f : A -> Prog F A') (f' : B -> Prog F B') :
    simg R p p' -> (forall a b, R a b -> simg R' (f a) (f' b)) -> simg R' (pbind p f) (pbind p' f').
  Proof. induction 1; intros Hf; cbn [pbind]; try (econstructor; eauto; fail). auto. Qed.
  Lemma simg_mono {A B} (R R' : A -> B -> Prop) p p' : (forall a b, R a b -> R' a b) -> simg R p p' -> simg R' p p'.
  Proof. intros HR. induction 1; econstructor; eauto. Qed.
End Same.

Section GP.
  Context {F : Field}.
  Add Field FFgp : (f_th F).
  Variable w : Var -> F.
  Implicit Types (ok : Var -> Prop).

  (** *** select *)
  Lemma select_loop_sound x xs : forall prod,
    wps w (select_loop x prod xs) (fun _ => lc_val w prod = 0 \/ Exists (fun xi => lc_val w xi = lc_val w x) xs).
  Proof.
    induction xs as [|xi xs IH]; intros prod; cbn [select_loop wps]; [auto|].
    intros lv rv ov Hl Hr Ho. eapply wps_mono; [|apply IH]. intros [] [H|H].
    - rewrite lc_val_var, Ho, Hl, Hr in H. apply fmul_eq_0 in H as [H|H]; [auto|]. lcv_in H.
      right. constructor. apply fsub_0_iff. exact H.
    - right. apply Exists_cons_tl. exact H.
  Qed.
  Lemma select_sound x xs : wps w (select x xs) (fun _ => Exists (fun xi => lc_val w xi = lc_val w x) xs).
  Proof.
    destruct xs as [|x0 xs]; [exact I|]. cbn [select]. eapply wps_mono; [|apply select_loop_sound].
    intros [] [H|H]; [constructor|apply Exists_cons_tl; exact H]. lcv_in H. apply fsub_0_iff. exact H.
  Qed.
  Lemma select_loop_complete x xs (Q : _ -> unit -> Prop) : forall ok prod, lc_ok ok x -> lc_ok ok prod -> Forall (lc_ok ok) xs ->
    (lc_val w prod = 0 \/ Exists (fun xi => lc_val w xi = lc_val w x) xs) ->
    (forall ok', ok_sub ok ok' -> Q ok' tt) -> wpc w ok (select_loop x prod xs) Q.
  Proof.
    induction xs as [|xi xs IH]; intros ok prod Hx Hp Hxs Hv HQ; cbn [select_loop wpc].
    - split; [exact Hp|]. split; [|apply HQ, ok_sub_refl]. destruct Hv as [H|H]; [exact H|inversion H].
    - apply Forall_cons_iff in Hxs as [Hxi Hxs]. split; [exact Hp|]. split; [apply lc_ok_sub_lc; assumption|].
      intros lv rv ov Hl Hr Ho. set (ok' := ok_add (ok_add (ok_add ok lv) rv) ov).
      assert (Hs : ok_sub ok ok') by (do 3 apply ok_sub_add; apply ok_sub_refl).
      apply IH.
      + eapply lc_ok_sub; eassumption.
      + apply lc_ok_var. apply ok_add_in.
      + revert Hxs. apply Forall_impl. intros lc. apply lc_ok_sub. exact Hs.
      + rewrite lc_val_var, Ho. destruct Hv as [H|H]; [left; rewrite H; ring|]. inversion H as [? ? H1|? ? H1]; subst; [|right; exact H1].
        left. lcv. rewrite H1. ring.
      + intros ok'' H''. apply HQ. eapply ok_sub_trans; eassumption.
  Qed.
  Lemma select_complete x xs (Q : _ -> unit -> Prop) ok : lc_ok ok x -> Forall (lc_ok ok) xs ->
    Exists (fun xi => lc_val w xi = lc_val w x) xs ->
    (forall ok', ok_sub ok ok' -> Q ok' tt) -> wpc w ok (select x xs) Q.
  Proof.
    intros Hx Hxs Hv HQ. destruct xs as [|x0 xs]; [inversion Hv|]. apply Forall_cons_iff in Hxs as [H0 Hxs]. cbn [select].
    apply select_loop_complete; auto; [apply lc_ok_sub_lc; assumption|].
    inversion Hv as [? ? H1|? ? H1]; subst; [|right; exact H1]. left. lcv. rewrite H1. ring.
  Qed.
  Lemma select_loop_same x xs : forall prod, simg eq (select_loop (F:=F) x prod xs) (select_loop x prod xs).
  Proof. induction xs as [|xi xs IH]; intros prod; cbn [select_loop]; constructor; [constructor; reflexivity|]. intros [[? ?] ?]. apply IH. Qed.
  Lemma select_same x xs : simg eq (select (F:=F) x xs) (select x xs).
  Proof. destruct xs; [constructor|apply select_loop_same]. Qed.

  (** *** range proof *)
  Hypothesis w1 : w One = 1.

  Lemma bit_cases (a : F) : a * (a - 1) = 0 -> a = 0 \/ a = 1.
  Proof. intros H. apply fmul_eq_0 in H as [H|H]; [auto|]. right. apply fsub_0_iff. exact H. Qed.

  Lemma range_loop_sound dbg q n : forall i e v,
    wps w (range_loop dbg q n i e v) (fun _ => exists k : N, (k < 2 ^ N.of_nat n)%N /\ lc_val w v = e * fN k).
  Proof.
    induction n as [|n IH]; intros i e v; cbn [range_loop wps].
    - intros H. exists 0%N. split; [reflexivity|]. rewrite H. cbn. ring.
    - assert (Hgo : forall a, wps w (PAllocMul a (fun r =>
        match r with
        | Err e => PRet (Err e)
        | Ok (a, b, o) =>
          PConstrain (lc_var o)
          (PConstrain (lc_add (lc_var a) (lc_sub (lc_var b) (lc_const 1)))
          (range_loop dbg q n (S i) (e + e) (lc_sub v (var_mul b e))))
        end)) (fun _ => exists k : N, (k < 2 ^ N.of_nat (S n))%N /\ lc_val w v = e * fN k)).
      { intros oa. cbn [wps]. intros a b o Ho H1 H2. eapply wps_mono; [|apply IH]. intros [] (k & Hk & Hv).
        all: rewrite lc_val_var in H1; lcv_in H2; rewrite (lc_val_const w 1 w1) in H2; lcv_in Hv.
        all: assert (Ha : w a = 1 - w b) by (transitivity (w a + (w b - 1) - (w b - 1)); [ring|rewrite H2; ring]).
        all: assert (Hb : w b = 0 \/ w b = 1) by (apply bit_cases; transitivity (- (w a * w b)); [rewrite Ha; ring|rewrite <- Ho, H1; ring]).
        all: assert (Hvv : lc_val w v = w b * e + (e + e) * fN k) by (rewrite <- Hv; ring).
        all: assert (Hpow : (2 ^ N.of_nat (S n) = 2 * 2 ^ N.of_nat n)%N) by (rewrite Nat2N.inj_succ, N.pow_succ_r'; reflexivity).
        all: rewrite Hpow; destruct Hb as [Hb|Hb]; rewrite Hb in Hvv; [exists (2 * k)%N|exists (2 * k + 1)%N]; (split; [lia|]); rewrite Hvv.
        all: rewrite ?fN_add, ?fN_mul; cbn [fN fpos]; ring. }
      destruct q as [q|]; [|apply Hgo]. destruct (u64_bit dbg q i); [apply Hgo|exact I].
  Qed.
  Lemma range_sound dbg v q n : wps w (range_proof dbg v q n) (fun _ => exists k : N, (k < 2 ^ N.of_nat n)%N /\ lc_val w v = fN k).
  Proof.
    eapply wps_mono; [|apply range_loop_sound]. intros _ (k & Hk & Hv). exists k. split; [exact Hk|]. rewrite Hv. ring.
  Qed.
  Lemma b2n_01 (b : bool) : (fN (1 - N.b2n b) * fN (N.b2n b) : F) = 0.
  Proof. destruct b; cbn; ring. Qed.
  Lemma shiftr_step q i : N.shiftr q (N.of_nat i) = (2 * N.shiftr q (N.of_nat (S i)) + N.b2n (N.testbit_nat q i))%N.
  Proof.
    rewrite Nat2N.inj_succ, <- N.add_1_r, <- N.shiftr_shiftr, <- N.div2_spec. rewrite <- Ntestbit_Nbit.
    replace (N.testbit q (N.of_nat i)) with (N.odd (N.shiftr q (N.of_nat i))).
    - apply N.div2_odd.
    - rewrite <- N.bit0_odd, N.shiftr_spec by lia. reflexivity.
  Qed.
  Lemma mod_double a b m : (m <> 0)%N -> (b < 2)%N -> ((2 * a + b) mod (2 * m) = 2 * (a mod m) + b)%N.
  Proof.
    intros Hm Hb. symmetry. apply (N.mod_unique _ _ (a / m)).
    - pose proof (N.mod_upper_bound a m Hm). lia.
    - pose proof (N.div_mod a m Hm). nia.
  Qed.
  Lemma range_loop_complete dbg q n (Q : _ -> Res unit -> Prop) : forall i e v ok, ok One -> lc_ok ok v -> (i + n <= 64)%nat ->
    lc_val w v = e * fN (N.shiftr q (N.of_nat i) mod 2 ^ N.of_nat n) ->
    (forall ok', ok_sub ok ok' -> Q ok' (Ok tt)) -> wpc w ok (range_loop dbg (Some q) n i e v) Q.
  Proof.
    induction n as [|n IH]; intros i e v ok H1 Hv Hi Hval HQ; cbn [range_loop wpc].
    - split; [exact Hv|]. split; [|apply HQ, ok_sub_refl]. rewrite Hval. cbn [N.of_nat]. change (2 ^ 0)%N with 1%N. rewrite N.mod_1_r. cbn. ring.
    - unfold u64_bit. destruct (Nat.ltb_spec i 64) as [_|]; [|lia]. cbn [wpc]. intros a b o Ha Hb Ho.
      set (ok' := ok_add (ok_add (ok_add ok a) b) o).
      assert (Hs : ok_sub ok ok') by (do 3 apply ok_sub_add; apply ok_sub_refl).
      set (t := N.testbit_nat q i) in *.
      pose proof (shiftr_step q i) as Hsh. fold t in Hsh.
      split; [apply lc_ok_var, ok_add_in|]. split; [rewrite lc_val_var, Ho; apply b2n_01|].
      split; [apply lc_ok_add; [apply lc_ok_var; do 2 left; right; reflexivity|apply lc_ok_sub_lc; [apply lc_ok_var; left; right; reflexivity|apply lc_ok_const; do 3 left; exact H1]]|].
      split.
      { lcv. rewrite (lc_val_const w 1 w1), Ha, Hb. destruct t; cbn; ring. }
      assert (Hpow : (2 ^ N.of_nat (S n) = 2 * 2 ^ N.of_nat n)%N) by (rewrite Nat2N.inj_succ, N.pow_succ_r'; reflexivity).
      apply IH.
      + do 3 left. exact H1.
      + apply lc_ok_sub_lc; [eapply lc_ok_sub; eassumption|]. apply lc_ok_var_mul. left. right. reflexivity.
      + lia.
      + lcv. rewrite Hval, Hb, Hsh, Hpow, mod_double by (try apply N.pow_nonzero; destruct t; cbn; lia). rewrite fN_add, fN_mul. cbn [fN fpos]. ring.
      + intros ok'' H''. apply HQ. eapply ok_sub_trans; eassumption.
  Qed.
  Lemma range_complete_mod dbg v q n (Q : _ -> Res unit -> Prop) ok : ok One -> lc_ok ok v -> (n <= 64)%nat -> lc_val w v = fN (q mod 2 ^ N.of_nat n) ->
    (forall ok', ok_sub ok ok' -> Q ok' (Ok tt)) -> wpc w ok (range_proof dbg v (Some q) n) Q.
  Proof.
    intros H1 Hv Hn Hval HQ. apply range_loop_complete; auto; rewrite ?N.shiftr_0_r; auto. rewrite Hval. ring.
  Qed.
  Lemma range_complete dbg v q n (Q : _ -> Res unit -> Prop) ok : ok One -> lc_ok ok v -> (n <= 64)%nat -> (q < 2 ^ N.of_nat n)%N -> lc_val w v = fN q ->
    (forall ok', ok_sub ok ok' -> Q ok' (Ok tt)) -> wpc w ok (range_proof dbg v (Some q) n) Q.
  Proof. intros H1 Hv Hn Hq Hval HQ. apply range_complete_mod; auto. rewrite N.mod_small by exact Hq. exact Hval. Qed.
  (** the value forced when the witness is [q] *)
  Lemma range_loop_exact dbg q n : forall i e v, (i + n <= 64)%nat ->
    wpx w (range_loop dbg (Some q) n i e v) (fun _ => lc_val w v = e * fN (N.shiftr q (N.of_nat i) mod 2 ^ N.of_nat n)).
  Proof.
    induction n as [|n IH]; intros i e v Hi; cbn [range_loop wpx].
    - intros H. rewrite H. cbn [N.of_nat]. change (2 ^ 0)%N with 1%N. rewrite N.mod_1_r. cbn. ring.
    - unfold u64_bit. destruct (Nat.ltb_spec i 64) as [_|]; [|lia]. cbn [wpx]. intros a b o Ha Hb Ho C1 C2.
      eapply wpx_mono; [|apply IH; lia]. intros aa Hv. cbv beta in Hv |- *.
      set (t := N.testbit_nat q i) in *. rewrite (shiftr_step q i). fold t.
      replace (2 ^ N.of_nat (S n))%N with (2 * 2 ^ N.of_nat n)%N by (rewrite Nat2N.inj_succ, N.pow_succ_r'; reflexivity).
      rewrite mod_double by (try apply N.pow_nonzero; destruct t; cbn; lia). rewrite fN_add, fN_mul. cbn [fN fpos].
      lcv_in Hv. transitivity (w b * e + (e + e) * fN (N.shiftr q (N.of_nat (S i)) mod 2 ^ N.of_nat n)); [rewrite <- Hv; ring|]. rewrite Hb. ring.
  Qed.
  Lemma range_exact dbg v q n : (n <= 64)%nat -> wpx w (range_proof dbg v (Some q) n) (fun _ => lc_val w v = fN (q mod 2 ^ N.of_nat n)).
  Proof.
    intros Hn. eapply wpx_mono; [|apply range_loop_exact; lia]. intros aa H. cbv beta in H |- *. rewrite H, N.shiftr_0_r. ring.
  Qed.
  Lemma range_loop_same dbg q n : forall i e v, simg eq (range_loop (F:=F) dbg (Some q) n i e v) (range_loop dbg None n i e v).
  Proof.
    induction n as [|n IH]; intros i e v; cbn [range_loop]; [repeat constructor|].
    destruct (u64_bit dbg q i); [|constructor]. constructor. intros [[a b] o]. do 2 constructor. apply IH.
  Qed.

  (** *** lookup *)
  Lemma memb_right_val u sa s1 s2 : lc_val w (memb_right u sa s1 s2) =
    - (lc_val w sa * row_at u 0) + lc_val w s2 * row_at u 0 + lc_val w s1 * row_at u 0 - row_at u 0 + lc_val w sa * row_at u 2
    - lc_val w s1 * row_at u 2 + lc_val w sa * row_at u 4 - lc_val w s2 * row_at u 4 - lc_val w sa * row_at u 6.
  Proof. unfold memb_right. lcv. rewrite !(lc_val_const w _ w1). ring. Qed.
  (* vocabulary of specifications and proofs, no code modelled *)
  Definition bitv (x : F) (b : bool) : Prop := x = b2f b.
  (** entry number of three bits *)
  Definition idx3 (b0 b1 b2 : bool) : nat := ((if b0 then 1 else 0) + (if b1 then 2 else 0) + (if b2 then 4 else 0))%nat.
  Lemma memb_value u (sa s0 s1 s2 : LC F) b0 b1 b2 (v : F) :
    lc_val w s0 = b2f b0 -> lc_val w s1 = b2f b1 -> lc_val w s2 = b2f b2 -> lc_val w sa = b2f b1 * b2f b2 ->
    forall X, X = lc_val w s0 * (lc_val w (memb_right u sa s1 s2) + lc_val w sa * row_at u 1 - lc_val w s2 * row_at u 1 - lc_val w s1 * row_at u 1 + row_at u 1 - lc_val w sa * row_at u 3
       + lc_val w s1 * row_at u 3 - lc_val w sa * row_at u 5 + lc_val w s2 * row_at u 5 + lc_val w sa * row_at u 7) ->
    X - lc_val w (memb_right u sa s1 s2) = row_at u (idx3 b0 b1 b2).
  Proof.
    intros H0 H1 H2 Ha X ->. rewrite memb_right_val, H0, H1, H2, Ha. destruct b0, b1, b2; cbn [b2f idx3 Nat.add]; ring.
  Qed.
  Lemma memb_f_val u sa s1 s2 :
    lc_val w (lc_add (lc_add (lc_sub (lc_add (lc_sub (lc_add (lc_sub (lc_sub (lc_add (memb_right u sa s1 s2) (lc_mul sa (row_at u 1))) (lc_mul s2 (row_at u 1))) (lc_mul s1 (row_at u 1))) (lc_const (row_at u 1))) (lc_mul sa (row_at u 3))) (lc_mul s1 (row_at u 3))) (lc_mul sa (row_at u 5))) (lc_mul s2 (row_at u 5))) (lc_mul sa (row_at u 7)))
    = lc_val w (memb_right u sa s1 s2) + lc_val w sa * row_at u 1 - lc_val w s2 * row_at u 1 - lc_val w s1 * row_at u 1 + row_at u 1 - lc_val w sa * row_at u 3
       + lc_val w s1 * row_at u 3 - lc_val w sa * row_at u 5 + lc_val w s2 * row_at u 5 + lc_val w sa * row_at u 7.
  Proof. lcv. rewrite !(lc_val_const w _ w1). ring. Qed.

  (** the three variables hold the bits of the digit [d], least significant first *)
  Definition bits_are (bs : Var * Var * Var) (d : nat) : Prop :=
    let '(b0, b1, b2) := bs in w b0 = b2f (Nat.testbit d 0) /\ w b1 = b2f (Nat.testbit d 1) /\ w b2 = b2f (Nat.testbit d 2).
  Lemma lookup_rows_sound {A} (sa s0 s1 s2 : LC F) b0 b1 b2 (Q : A -> Prop) :
    lc_val w s0 = b2f b0 -> lc_val w s1 = b2f b1 -> lc_val w s2 = b2f b2 -> lc_val w sa = b2f b1 * b2f b2 ->
    forall rows acc k,
    (forall rs, map (lc_val w) rs = map (lc_val w) acc ++ map (fun u => row_at u (idx3 b0 b1 b2)) rows -> wps w (k rs) Q) ->
    wps w (lookup_rows rows sa s0 s1 s2 acc k) Q.
  Proof.
    intros H0 H1 H2 Ha. induction rows as [|u rows IH]; intros acc k Hk; cbn [lookup_rows].
    - apply Hk. rewrite app_nil_r. reflexivity.
    - unfold single_membership. cbn [wps]. intros lv rv ov Hl Hr Ho. apply IH. intros rs Hrs. apply Hk. rewrite Hrs, map_app, <- app_assoc. cbn [map app]. f_equal. f_equal.
      rewrite lc_val_sub, lc_val_var. apply (memb_value u sa s0 s1 s2 b0 b1 b2 0); auto. rewrite Ho, Hl, Hr, memb_f_val. reflexivity.
  Qed.
  Lemma lookup_bits_sound table index :
    wps w (lookup_bits table index) (fun r => exists bs rs d, r = Ok (bs, rs) /\ (d < 8)%nat /\ bits_are bs d /\ map (lc_val w) rs = map (fun u => row_at u d) table).
  Proof.
    unfold lookup_bits. cbn [wps]. intros b1 b2 ba Hba. unfold bit. cbn [wps]. intros b0 bi z Hz C1 C2. unfold is_bit. cbn [wps].
    intros l1 r1 o1 Hl1 Hr1 Ho1 C3 l2 r2 o2 Hl2 Hr2 Ho2 C4.
    lcv_in C1. lcv_in C2. lcv_in C3. lcv_in C4. lcv_in Hl1. lcv_in Hr1. lcv_in Hl2. lcv_in Hr2.
    rewrite (lc_val_const w 1 w1) in C1, Hr1, Hr2.
    assert (B0 : exists c0, w b0 = b2f c0).
    { assert (Hbi : w bi = w b0 - 1) by (apply fsub_0_iff; exact C1). destruct (bit_cases (w b0)) as [H|H]; [congruence|exists false; exact H|exists true; exact H]. }
    assert (B1 : exists c1, w b1 = b2f c1).
    { destruct (bit_cases (w b1)) as [H|H]; [congruence|exists false; exact H|exists true; exact H]. }
    assert (B2 : exists c2, w b2 = b2f c2).
    { destruct (bit_cases (w b2)) as [H|H]; [congruence|exists false; exact H|exists true; exact H]. }
    destruct B0 as (c0 & B0), B1 as (c1 & B1), B2 as (c2 & B2).
    apply (lookup_rows_sound _ _ _ _ c0 c1 c2); rewrite ?lc_val_var; auto; [congruence|].
    intros rs Hrs. cbn [wps]. exists (b0, b1, b2), rs, (idx3 c0 c1 c2). split; [reflexivity|]. split; [destruct c0, c1, c2; cbn; lia|]. split; [|exact Hrs].
    cbn [bits_are]. rewrite B0, B1, B2. destruct c0, c1, c2; cbn; auto.
  Qed.
  Lemma lookup_sound table index :
    wps w (lookup table index) (fun r => exists rs d, r = Ok rs /\ (d < 8)%nat /\ map (lc_val w) rs = map (fun u => row_at u d) table).
  Proof.
    unfold lookup. apply wps_bind. eapply wps_mono; [|apply lookup_bits_sound]. intros r (bs & rs & d & -> & Hd & _ & Hv). cbn [wps]. eauto.
  Qed.
  Lemma lookup_rows_complete {A} (sa s0 s1 s2 : LC F) b0 b1 b2 (Q : _ -> A -> Prop) :
    lc_val w s0 = b2f b0 -> lc_val w s1 = b2f b1 -> lc_val w s2 = b2f b2 -> lc_val w sa = b2f b1 * b2f b2 ->
    forall rows ok acc k, ok One -> lc_ok ok sa -> lc_ok ok s0 -> lc_ok ok s1 -> lc_ok ok s2 -> Forall (lc_ok ok) acc ->
    (forall ok' rs, ok_sub ok ok' -> Forall (lc_ok ok') rs -> map (lc_val w) rs = map (lc_val w) acc ++ map (fun u => row_at u (idx3 b0 b1 b2)) rows -> wpc w ok' (k rs) Q) ->
    wpc w ok (lookup_rows rows sa s0 s1 s2 acc k) Q.
  Proof.
    intros H0 H1 H2 Ha. induction rows as [|u rows IH]; intros ok acc k Hone Oa O0 O1 O2 Oacc Hk; cbn [lookup_rows].
    - apply Hk; [apply ok_sub_refl|assumption|]. rewrite app_nil_r. reflexivity.
    - assert (Om : lc_ok ok (memb_right u sa s1 s2)).
      { unfold memb_right. repeat first [apply lc_ok_sub_lc|apply lc_ok_add|apply lc_ok_neg|apply lc_ok_mul|apply lc_ok_const]; assumption. }
      unfold single_membership. cbn [wpc]. split; [exact O0|]. split.
      { repeat first [exact Om|apply lc_ok_sub_lc|apply lc_ok_add|apply lc_ok_neg|apply lc_ok_mul|apply lc_ok_const]; assumption. }
      intros lv rv ov Hl Hr Ho. set (ok' := ok_add (ok_add (ok_add ok lv) rv) ov).
      assert (Hs : ok_sub ok ok') by (do 3 apply ok_sub_add; apply ok_sub_refl).
      apply IH; try (eapply lc_ok_sub; eassumption).
      + apply Hs, Hone.
      + apply Forall_app. split; [revert Oacc; apply Forall_impl; intros lc; apply lc_ok_sub; exact Hs|]. constructor; [|constructor].
        apply lc_ok_sub_lc; [apply lc_ok_var, ok_add_in|]. eapply lc_ok_sub; eassumption.
      + intros ok'' rs Hss Hrs Hv. apply Hk; [eapply ok_sub_trans; eassumption|assumption|]. rewrite Hv, map_app, <- app_assoc. cbn [map app]. f_equal. f_equal.
        rewrite lc_val_sub, lc_val_var. apply (memb_value u sa s0 s1 s2 b0 b1 b2 0); auto. rewrite Ho, memb_f_val. reflexivity.
  Qed.
  Lemma idx3_bits d : (d < 8)%nat -> idx3 (Nat.testbit d 0) (Nat.testbit d 1) (Nat.testbit d 2) = d.
  Proof. intros H. do 8 (destruct d as [|d]; [reflexivity|]). lia. Qed.
  Lemma lookup_bits_complete table d (Q : _ -> Res (Var * Var * Var * list (LC F)) -> Prop) ok : ok One -> (d < 8)%nat ->
    (forall ok' bs rs, ok_sub ok ok' -> Forall (lc_ok ok') rs -> bits_are bs d -> map (lc_val w) rs = map (fun u => row_at u d) table -> Q ok' (Ok (bs, rs))) ->
    wpc w ok (lookup_bits table (Some d)) Q.
  Proof.
    intros H1 Hd HQ. unfold lookup_bits. cbn [wpc option_map]. intros b1 b2 ba Hb1 Hb2 Hba. unfold bit. cbn [wpc option_map].
    intros b0 bi z Hb0 Hbi Hz. set (ok2 := ok_add _ z).
    assert (Hs : ok_sub ok ok2) by (do 6 apply ok_sub_add; apply ok_sub_refl).
    assert (Ob1 : ok2 b1) by (do 5 left; right; reflexivity). assert (Ob2 : ok2 b2) by (do 4 left; right; reflexivity).
    assert (Oba : ok2 ba) by (do 3 left; right; reflexivity). assert (Ob0 : ok2 b0) by (do 2 left; right; reflexivity).
    assert (Obi : ok2 bi) by (do 1 left; right; reflexivity). assert (Oz : ok2 z) by (right; reflexivity).
    assert (O1 : ok2 One) by (apply Hs; exact H1).
    split; [repeat first [apply lc_ok_sub_lc|apply lc_ok_var|apply lc_ok_const]; assumption|].
    split; [lcv; rewrite (lc_val_const w 1 w1), Hbi, Hb0; ring|].
    split; [apply lc_ok_var; assumption|].
    split; [rewrite lc_val_var, Hz; destruct (Nat.testbit d 0); ring|].
    unfold is_bit. cbn [wpc].
    split; [apply lc_ok_var; assumption|]. split; [repeat first [apply lc_ok_sub_lc|apply lc_ok_var|apply lc_ok_const]; assumption|].
    intros l1 r1 o1 Hl1 Hr1 Ho1. split; [apply lc_ok_var, ok_add_in|].
    split; [rewrite lc_val_var, Ho1; lcv; rewrite (lc_val_const w 1 w1), Hb1; destruct (Nat.testbit d 1); cbn [b2f]; ring|].
    split; [apply lc_ok_var; do 3 left; assumption|]. split; [repeat first [apply lc_ok_sub_lc|apply lc_ok_var|apply lc_ok_const]; do 3 left; assumption|].
    intros l2 r2 o2 Hl2 Hr2 Ho2. split; [apply lc_ok_var, ok_add_in|].
    split; [rewrite lc_val_var, Ho2; lcv; rewrite (lc_val_const w 1 w1), Hb2; destruct (Nat.testbit d 2); cbn [b2f]; ring|].
    apply (lookup_rows_complete _ _ _ _ (Nat.testbit d 0) (Nat.testbit d 1) (Nat.testbit d 2)); rewrite ?lc_val_var; auto.
    1: do 6 left; assumption.
    1-4: apply lc_ok_var; do 6 left; assumption.
    intros ok' rs Hs' Hrs Hv. cbn [wpc]. apply HQ; [|assumption| |].
    - eapply ok_sub_trans; [exact Hs|]. eapply ok_sub_trans; [|exact Hs']. do 6 apply ok_sub_add. apply ok_sub_refl.
    - cbn [bits_are]. auto.
    - cbn [map app] in Hv. rewrite Hv, idx3_bits by exact Hd. reflexivity.
  Qed.
  Lemma lookup_complete table d (Q : _ -> Res (list (LC F)) -> Prop) ok : ok One -> (d < 8)%nat ->
    (forall ok' rs, ok_sub ok ok' -> Forall (lc_ok ok') rs -> map (lc_val w) rs = map (fun u => row_at u d) table -> Q ok' (Ok rs)) ->
    wpc w ok (lookup table (Some d)) Q.
  Proof. intros H1 Hd HQ. unfold lookup. apply wpc_bind. apply lookup_bits_complete; auto. intros ok' bs rs Hs Hrs _ Hv. cbn [wpc]. auto. Qed.
  Lemma lookup_rows_same {A B} (R : A -> B -> Prop) sa s0 s1 s2 : forall rows acc (k : list (LC F) -> Prog F A) k',
    (forall rs, simg R (k rs) (k' rs)) -> simg R (lookup_rows rows sa s0 s1 s2 acc k) (lookup_rows rows sa s0 s1 s2 acc k').
  Proof. induction rows as [|u rows IH]; intros acc k k' Hk; cbn [lookup_rows]; [apply Hk|]. constructor. intros [[? ?] ?]. apply IH, Hk. Qed.
  Lemma lookup_bits_same table d : simg eq (lookup_bits (F:=F) table (Some d)) (lookup_bits table None).
  Proof.
    constructor. intros [[b1 b2] ba]. constructor. intros [[b0 bi] z]. do 2 constructor. constructor. intros [[? ?] ?]. constructor. constructor. intros [[? ?] ?]. constructor.
    apply lookup_rows_same. intros rs. constructor. reflexivity.
  Qed.
  Lemma lookup_same table d : simg eq (lookup (F:=F) table (Some d)) (lookup table None).
  Proof. unfold lookup. eapply simg_bind; [apply lookup_bits_same|]. intros r r' ->. constructor. reflexivity. Qed.

  (** *** curve_check *)
  Lemma curve_check_sound x y a b : wps w (curve_check x y a b) (fun _ =>
    lc_val w y * lc_val w y = lc_val w x * lc_val w x * lc_val w x + a * (lc_val w x * lc_val w x) + b).
  Proof.
    cbn [curve_check wps]. intros l1 r1 o1 Hl1 Hr1 Ho1 l2 r2 o2 Hl2 Hr2 Ho2 l3 r3 o3 Hl3 Hr3 Ho3 C. lcv_in C. rewrite (lc_val_const w b w1) in C. rewrite lc_val_var in Hr2.
    apply (proj1 (fsub_0_iff _ _)) in C. rewrite Ho3, Hl3, Hr3 in C. rewrite <- C, Ho2, Hl2, Hr2, Ho1, Hl1, Hr1. ring.
  Qed.
  Lemma curve_check_complete x y a b (Q : _ -> unit -> Prop) ok : ok One -> lc_ok ok x -> lc_ok ok y ->
    lc_val w y * lc_val w y = lc_val w x * lc_val w x * lc_val w x + a * (lc_val w x * lc_val w x) + b ->
    (forall ok', ok_sub ok ok' -> Q ok' tt) -> wpc w ok (curve_check x y a b) Q.
  Proof.
    intros H1 Ox Oy Hv HQ. cbn [curve_check wpc]. split; [exact Ox|]. split; [exact Ox|]. intros l1 r1 o1 Hl1 Hr1 Ho1.
    set (k1 := ok_add _ o1). assert (S1 : ok_sub ok k1) by (do 3 apply ok_sub_add; apply ok_sub_refl).
    split; [eapply lc_ok_sub; eassumption|]. split; [apply lc_ok_var, ok_add_in|]. intros l2 r2 o2 Hl2 Hr2 Ho2.
    set (k2 := ok_add _ o2). assert (S2 : ok_sub k1 k2) by (do 3 apply ok_sub_add; apply ok_sub_refl).
    split; [eapply lc_ok_sub; [|exact Oy]; eapply ok_sub_trans; eassumption|]. split; [eapply lc_ok_sub; [|exact Oy]; eapply ok_sub_trans; eassumption|]. intros l3 r3 o3 Hl3 Hr3 Ho3.
    set (k3 := ok_add _ o3). assert (S3 : ok_sub k2 k3) by (do 3 apply ok_sub_add; apply ok_sub_refl).
    assert (I1 : k3 o1) by (apply S3, S2, ok_add_in). assert (I2 : k3 o2) by (apply S3, ok_add_in). assert (I3 : k3 o3) by apply ok_add_in.
    split; [repeat first [apply lc_ok_sub_lc|apply lc_ok_add|apply lc_ok_mul|apply lc_ok_var|apply lc_ok_const]; auto|].
    split; [|apply HQ; eapply ok_sub_trans; [exact S1|]; eapply ok_sub_trans; eassumption].
    lcv. rewrite (lc_val_const w b w1), Ho3, Hv, Ho2, lc_val_var, Ho1. ring.
  Qed.

  (** *** additions *)
  (** the three equations that [incomplete_curve_addition] enforces *)
  Definition add_eqs (xl yl xr yr xo yo d : F) : Prop :=
    d * (xr - xl) = yr - yl /\ d * (xo - xl) = - yo - yl /\ d * d = xo + xr + xl.
  Lemma incomplete_sound (p : CurveAddition F) : wps w (incomplete_curve_addition p) (fun _ => exists d,
    add_eqs (lc_val w (ca_xl p)) (lc_val w (ca_yl p)) (lc_val w (ca_xr p)) (lc_val w (ca_yr p)) (lc_val w (ca_xo p)) (lc_val w (ca_yo p)) d).
  Proof.
    unfold incomplete_curve_addition, palloc. cbn [wps]. intros dv l1 r1 o1 Hl1 Hr1 Ho1 C1 l2 r2 o2 Hl2 Hr2 Ho2 C2 l3 r3 o3 Hl3 Hr3 Ho3 C3.
    lcv_in C1. lcv_in C2. lcv_in C3. lcv_in Hl1. lcv_in Hr1. lcv_in Hl2. lcv_in Hr2. lcv_in Hl3. lcv_in Hr3.
    apply (proj1 (fsub_0_iff _ _)) in C1. apply (proj1 (fsub_0_iff _ _)) in C2. apply (proj1 (fsub_0_iff _ _)) in C3.
    exists (w dv). split; [|split].
    - rewrite <- C1, Ho1, Hl1, Hr1. reflexivity.
    - rewrite <- C2, Ho2, Hl2, Hr2. reflexivity.
    - rewrite C3, Ho3, Hl3, Hr3. reflexivity.
  Qed.
  Lemma checked_sound (p : CurveAddition F) inv : wps w (checked_curve_addition p inv) (fun _ =>
    lc_val w (ca_xl p) <> lc_val w (ca_xr p) /\ exists d,
    add_eqs (lc_val w (ca_xl p)) (lc_val w (ca_yl p)) (lc_val w (ca_xr p)) (lc_val w (ca_yr p)) (lc_val w (ca_xo p)) (lc_val w (ca_yo p)) d).
  Proof.
    unfold checked_curve_addition, not_zero. unfold palloc at 1. cbn [wps]. intros iv l1 r1 o1 Hl1 Hr1 Ho1 C1. eapply wps_mono; [|apply incomplete_sound].
    intros [] Hd. split; [|exact Hd]. intros Heq. lcv_in C1. lcv_in Hl1. rewrite Heq in Hl1. rewrite Ho1, Hl1, w1 in C1.
    apply (f1_neq_0 (F:=F)). transitivity ((lc_val w (ca_xr p) - lc_val w (ca_xr p)) * w r1); [symmetry; apply fsub_0_iff; exact C1|ring].
  Qed.
  Lemma incomplete_complete (p : CurveAddition F) d (Q : _ -> unit -> Prop) ok : ca_delta p = Some d ->
    lc_ok ok (ca_xl p) -> lc_ok ok (ca_yl p) -> lc_ok ok (ca_xr p) -> lc_ok ok (ca_yr p) -> lc_ok ok (ca_xo p) -> lc_ok ok (ca_yo p) ->
    add_eqs (lc_val w (ca_xl p)) (lc_val w (ca_yl p)) (lc_val w (ca_xr p)) (lc_val w (ca_yr p)) (lc_val w (ca_xo p)) (lc_val w (ca_yo p)) d ->
    (forall ok', ok_sub ok ok' -> Q ok' tt) -> wpc w ok (incomplete_curve_addition p) Q.
  Proof.
    intros Hd O1 O2 O3 O4 O5 O6 (E1 & E2 & E3) HQ. unfold incomplete_curve_addition, palloc. rewrite Hd. cbn [wpc]. intros dv Hdv.
    set (k0 := ok_add ok dv). assert (S0 : ok_sub ok k0) by (apply ok_sub_add, ok_sub_refl). assert (Id : k0 dv) by apply ok_add_in.
    split; [apply lc_ok_var; exact Id|]. split; [apply lc_ok_sub_lc; eapply lc_ok_sub; eassumption|]. intros l1 r1 o1 Hl1 Hr1 Ho1.
    set (k1 := ok_add _ o1). assert (S1 : ok_sub k0 k1) by (do 3 apply ok_sub_add; apply ok_sub_refl).
    assert (S01 : ok_sub ok k1) by (eapply ok_sub_trans; eassumption).
    split; [repeat first [apply lc_ok_sub_lc|apply lc_ok_var; apply ok_add_in]; eapply lc_ok_sub; eassumption|].
    split; [lcv; rewrite Ho1; lcv; rewrite Hdv, E1; ring|].
    split; [apply lc_ok_var; apply S1, Id|]. split; [apply lc_ok_sub_lc; eapply lc_ok_sub; eassumption|]. intros l2 r2 o2 Hl2 Hr2 Ho2.
    set (k2 := ok_add _ o2). assert (S2 : ok_sub k1 k2) by (do 3 apply ok_sub_add; apply ok_sub_refl).
    assert (S02 : ok_sub ok k2) by (eapply ok_sub_trans; eassumption).
    split; [repeat first [apply lc_ok_sub_lc|apply lc_ok_neg|apply lc_ok_var; apply ok_add_in]; eapply lc_ok_sub; eassumption|].
    split; [lcv; rewrite Ho2; lcv; rewrite Hdv, E2; ring|].
    split; [apply lc_ok_var; apply S2, S1, Id|]. split; [apply lc_ok_var; apply S2, S1, Id|]. intros l3 r3 o3 Hl3 Hr3 Ho3.
    set (k3 := ok_add _ o3). assert (S3 : ok_sub k2 k3) by (do 3 apply ok_sub_add; apply ok_sub_refl).
    assert (S03 : ok_sub ok k3) by (eapply ok_sub_trans; eassumption).
    split; [repeat first [apply lc_ok_sub_lc|apply lc_ok_add|apply lc_ok_var; apply ok_add_in]; eapply lc_ok_sub; eassumption|].
    split; [lcv; rewrite Ho3; lcv; rewrite Hdv, E3; ring|]. apply HQ. exact S03.
  Qed.
  Lemma checked_complete (p : CurveAddition F) d i (Q : _ -> unit -> Prop) ok : ca_delta p = Some d -> ok One ->
    lc_ok ok (ca_xl p) -> lc_ok ok (ca_yl p) -> lc_ok ok (ca_xr p) -> lc_ok ok (ca_yr p) -> lc_ok ok (ca_xo p) -> lc_ok ok (ca_yo p) ->
    (lc_val w (ca_xl p) - lc_val w (ca_xr p)) * i = 1 ->
    add_eqs (lc_val w (ca_xl p)) (lc_val w (ca_yl p)) (lc_val w (ca_xr p)) (lc_val w (ca_yr p)) (lc_val w (ca_xo p)) (lc_val w (ca_yo p)) d ->
    (forall ok', ok_sub ok ok' -> Q ok' tt) -> wpc w ok (checked_curve_addition p (Some i)) Q.
  Proof.
    intros Hd H1 O1 O2 O3 O4 O5 O6 Hi He HQ. unfold checked_curve_addition, not_zero. unfold palloc at 1. cbn [wpc]. intros iv Hiv.
    set (k0 := ok_add ok iv). assert (S0 : ok_sub ok k0) by (apply ok_sub_add, ok_sub_refl).
    split; [apply lc_ok_sub_lc; eapply lc_ok_sub; eassumption|]. split; [apply lc_ok_var, ok_add_in|]. intros l1 r1 o1 Hl1 Hr1 Ho1.
    set (k1 := ok_add _ o1). assert (S1 : ok_sub k0 k1) by (do 3 apply ok_sub_add; apply ok_sub_refl).
    assert (S01 : ok_sub ok k1) by (eapply ok_sub_trans; eassumption).
    split; [apply lc_ok_sub_lc; apply lc_ok_var; [apply ok_add_in|apply S01, H1]|].
    split; [lcv; rewrite Ho1; lcv; rewrite Hiv, Hi, w1; ring|].
    apply (incomplete_complete p d); auto; try (eapply lc_ok_sub; eassumption). intros ok' Hs. apply HQ. eapply ok_sub_trans; eassumption.
  Qed.
End GP.

Section GPSame.
  Context {F : Field}.
  Lemma curve_check_same (x y : LC F) a b : simg eq (curve_check x y a b) (curve_check x y a b).
  Proof. constructor; intros [[? ?] ?]. constructor; intros [[? ?] ?]. constructor; intros [[? ?] ?]. constructor. constructor. reflexivity. Qed.
  (** same linear combinations, witness present on the prover's side *)
  Definition ca_same (p p' : CurveAddition F) : Prop :=
    ca_xl p = ca_xl p' /\ ca_yl p = ca_yl p' /\ ca_xr p = ca_xr p' /\ ca_yr p = ca_yr p' /\ ca_xo p = ca_xo p' /\ ca_yo p = ca_yo p'.
  Lemma incomplete_same p p' : ca_same p p' -> ca_delta p <> None -> simg eq (incomplete_curve_addition p) (incomplete_curve_addition p').
  Proof.
    intros (E1 & E2 & E3 & E4 & E5 & E6) Hd. destruct (ca_delta p) as [d|] eqn:Ed; [|congruence]. unfold incomplete_curve_addition, palloc. rewrite Ed, E1, E2, E3, E4, E5, E6.
    constructor. intros v. constructor; intros [[? ?] ?]. constructor. constructor; intros [[? ?] ?]. constructor. constructor; intros [[? ?] ?]. constructor. constructor. reflexivity.
  Qed.
  Lemma checked_same p p' i i' : ca_same p p' -> ca_delta p <> None -> i <> None -> simg eq (checked_curve_addition p i) (checked_curve_addition p' i').
  Proof.
    intros Hs Hd Hj. destruct i as [j|]; [|congruence]. unfold checked_curve_addition, not_zero. unfold palloc at 1 2. pose proof Hs as (E1 & _ & E3 & _). rewrite E1, E3.
    constructor. intros v. constructor; intros [[? ?] ?]. constructor. apply incomplete_same; assumption.
  Qed.
End GPSame.

(** ** From the logics to runs *)
Section Runs.
  Context {F : Field} {V : VSpace F}.
  Variable E : TrEnv V.
  Lemma simg_wps_wpx {A B} (R : A -> B -> Prop) w (p : Prog F A) (p' : Prog F B) : simg R p p' ->
    forall (Q : A -> Prop) (Q' : B -> Prop), (forall a b, R a b -> Q' b -> Q a) -> wps w p' Q' -> wpx w p Q.
  Proof.
    induction 1; intros Q Q' HQ; cbn [wps wpx]; eauto.
    destruct x as [x y]. intros Hk lv rv ov Hl Hr Ho. eapply H0; [exact HQ|]. apply Hk. rewrite Ho, Hl, Hr. reflexivity.
  Qed.
  (** What the prover's own satisfied assignment implies. *)
  Lemma prover_sound {A} (p p' : Prog F A) Q s s' a : gates_inv s -> prun E p s = Some (s', a) -> satisfies (p_asg s') (p_cs s') ->
    simg eq p p' -> (p_asg s' One = 1 -> wps (p_asg s') p' Q) -> Q a.
  Proof.
    intros Hg H Hs Hsim HW. eapply wpx_sound; [exact Hg|exact H|exact Hs|]. eapply simg_wps_wpx; [exact Hsim| |apply HW, Hs]. intros ? ? -> HQ. exact HQ.
  Qed.
  (** Earlier variables keep their values. *)
  Definition keeps (s s' : PState F) : Prop := forall u, issued s u -> issued s' u /\ p_asg s' u = p_asg s u.
  Lemma ext_keeps (s s' : PState F) : ext s s' -> keeps s s'.
  Proof. intros He u Hu. split; [eapply ext_issued; eassumption|apply ext_asg; assumption]. Qed.
  Lemma keeps_val (s s' : PState F) (lc : LC F) : keeps s s' -> lc_ok (issued s) lc -> lc_val (p_asg s') lc = lc_val (p_asg s) lc.
  Proof. intros Hk Hl. eapply lc_val_agree; [|exact Hl]. intros v Hv. apply Hk, Hv. Qed.
  Lemma agrees_val w (s : PState F) (lc : LC F) : agrees w s -> lc_ok (issued s) lc -> lc_val w lc = lc_val (p_asg s) lc.
  Proof. intros Ha Hl. eapply lc_val_agree; [|exact Hl]. intros v Hv. apply Ha, Hv. Qed.
  Lemma issued_one (s : PState F) : issued s One.
  Proof. split; [discriminate|]. intros i _; split; discriminate. Qed.
  Lemma prover_complete {A} {n} (p : Prog F A) (Q : (Var -> F) -> (Var -> Prop) -> A -> Prop) s :
    honest_from n s -> (forall w, agrees w s -> wpc w (issued s) p (Q w)) ->
    exists s' a, prun E p s = Some (s', a) /\ honest_from n s' /\ keeps s s' /\ exists ok, ok_sub ok (issued s') /\ Q (p_asg s') ok a.
  Proof.
    intros Hh HW. destruct (wpc_sound E p Q s (issued s) Hh (ok_sub_refl _) HW) as (s' & a & ok' & H1 & H2 & H3 & H4 & H5 & H6).
    exists s', a. split; [exact H1|]. split; [exact H2|]. split; [apply ext_keeps, H3|]. exists ok'. split; [exact H5|]. apply H6, agrees_self.
  Qed.
End Runs.
