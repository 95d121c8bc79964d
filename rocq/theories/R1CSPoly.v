(** * The prover's polynomials: slots, rows, and the coefficient at [op_degree] *)
From Verif Require Import R1CS CSSpec UtilProofs.
Local Open Scope F_scope.

(** ** op_splits *)
Section Splits.
  Local Open Scope nat_scope.
  Lemma op_degree_even ncomm : op_degree_of ncomm = 2 * (1 + ncomm / 2).
  Proof. unfold op_degree_of. lia. Qed.
  Lemma op_mid ncomm : op_degree_of ncomm / 2 = 1 + ncomm / 2.
  Proof. rewrite op_degree_even, Nat.mul_comm, Nat.div_mul; lia. Qed.
  Lemma op_degree_ge ncomm : ncomm + 1 <= op_degree_of ncomm.
  Proof. unfold op_degree_of. pose proof (Nat.div_mod ncomm 2 ltac:(lia)). pose proof (Nat.mod_upper_bound ncomm 2 ltac:(lia)). lia. Qed.

  Lemma op_splits_sum op l r : op mod 2 = 0 -> In (l, r) (op_splits op) -> l + r = op.
  Proof.
    intros He. pose proof (Nat.div_mod op 2 ltac:(lia)) as Hd. unfold op_splits. cbn [In]. intros [H|[H|H]].
    - assert (l = op / 2 /\ r = op / 2) as [-> ->] by (split; congruence). lia.
    - injection H as <- <-. lia.
    - apply in_map_iff in H as (x & H & Hx). injection H as <- <-. apply filter_In in Hx as [Hx _]. apply in_seq in Hx. lia.
  Qed.
  Lemma op_splits_snd op : 2 <= op -> NoDup (map snd (op_splits op)) /\ (forall r, In r (map snd (op_splits op)) <-> r <= op).
  Proof.
    intros Hop. assert (Hm : 1 <= op / 2 <= op).
    { split; [apply Nat.div_le_lower_bound; lia|]. apply Nat.div_le_upper_bound; lia. }
    unfold op_splits. cbn [map snd]. rewrite map_map. cbn [snd]. rewrite map_id.
    set (mid := op / 2) in *. split.
    - constructor; [|constructor].
      + cbn [In]. intros [H|H]; [lia|]. apply filter_In in H as [_ H]. rewrite Nat.eqb_refl in H. discriminate.
      + intros H. apply filter_In in H as [H _]. apply in_seq in H. lia.
      + apply NoDup_filter, seq_NoDup.
    - intros r. cbn [In]. rewrite filter_In, in_seq. destruct (Nat.eqb_spec r mid) as [->|Hn]; cbn [negb]; split; intros H.
      + lia.
      + left; reflexivity.
      + destruct H as [H|[H|[H _]]]; lia.
      + destruct (Nat.eq_dec r 0); [right; left; lia|right; right; split; [lia|reflexivity]].
  Qed.
  Lemma op_splits_length op : 2 <= op -> length (op_splits op) = op + 1.
  Proof.
    intros H. rewrite <- (map_length snd). destruct (op_splits_snd op H) as [Hnd Hin].
    rewrite <- (seq_length (op + 1) 0). apply Nat.le_antisymm; apply NoDup_incl_length; auto using seq_NoDup;
      intros x Hx; [apply Hin in Hx; apply in_seq; lia|apply in_seq in Hx; apply Hin; lia].
  Qed.
  Lemma op_splits_fst op : op mod 2 = 0 -> 2 <= op ->
    NoDup (map fst (op_splits op)) /\ (forall l, In l (map fst (op_splits op)) -> l <= op).
  Proof.
    intros He Hop. destruct (op_splits_snd op Hop) as [Hnd Hin].
    assert (Hmap : map fst (op_splits op) = map (fun r => op - r) (map snd (op_splits op))).
    { rewrite map_map. apply map_ext_in. intros [l r] Hlr. pose proof (op_splits_sum op l r He Hlr). cbn. lia. }
    rewrite Hmap. split.
    - assert (Hle : Forall (fun r => r <= op) (map snd (op_splits op))) by (apply Forall_forall; intros r; apply Hin).
      revert Hnd Hle. generalize (map snd (op_splits op)). clear. intros rs Hnd Hle. induction Hnd as [|r rs Hr Hnd IH]; [constructor|].
      inversion Hle; subst. cbn. constructor; [|auto]. intros H. apply in_map_iff in H as (x & Hx & Hi).
      rewrite Forall_forall in *. specialize (H2 x Hi). assert (x = r) by lia. subst. contradiction.
    - intros l Hl. apply in_map_iff in Hl as (x & <- & _). lia.
  Qed.
End Splits.

(** ** Rows *)
Section Rows.
  Context {F : Field}.
  Add Field FFpoly : (f_th F).
  Implicit Types (l r p : VecPoly F) (x : F).

  (** [p] has [D] rows of length [n]; only the rows listed in [W] may be nonzero *)
  Definition rows_ok n D (W : list nat) p : Prop :=
    length p = D /\ rect n p /\ forall d, (d < D)%nat -> ~ In d W -> nth d p [] = zeros n.
  (** value of column [i] of [p] at [x] *)
  Definition col p x i : F := fsum (length p) (fun d => nth i (nth d p []) 0 * fpow x d).
  (** coefficient [op] of the product *)
  Definition paired op l r : F := fsum (S op) (fun d => ip (nth d l []) (nth (op - d) r [])).

  Lemma vp_zero_ok n deg : rows_ok n (deg + 1) [] (vp_zero n deg).
  Proof.
    unfold vp_zero. split; [apply repeat_length|]. split.
    - apply Forall_forall. intros v Hv. apply repeat_spec in Hv. subst. apply repeat_length.
    - intros d Hd _. rewrite nth_repeat_any. destruct (Nat.ltb_spec d (deg + 1)); [reflexivity|lia].
  Qed.
  Lemma col_zero n D p x i : rows_ok n D [] p -> col p x i = 0.
  Proof.
    intros (Hl & _ & Hz). unfold col. apply fsum_zero. intros d Hd. rewrite Hz by (try lia; auto). rewrite nth_zeros. ring.
  Qed.
  Lemma paired_zero n D op l r : (op < D)%nat -> rows_ok n D [] l -> paired op l r = 0.
  Proof. intros Ho (Hl & _ & Hz). unfold paired. apply fsum_zero. intros d Hd. rewrite Hz by (try lia; auto). apply ip_zeros_l. Qed.

  (* vocabulary of specifications and proofs, no code modelled *)
  Definition pad_to n (v : list F) : list F := v ++ skipn (length v) (zeros n).
  Lemma pad_to_length n v : (length v <= n)%nat -> length (pad_to n v) = n.
  Proof. intros H. unfold pad_to. rewrite app_length, skipn_length, zeros_length. lia. Qed.
  Lemma nth_pad_to n v i : nth i (pad_to n v) 0 = nth i v 0.
  Proof.
    unfold pad_to. rewrite nth_app0. destruct (Nat.ltb_spec i (length v)); [reflexivity|].
    rewrite nth_skipn, nth_zeros. symmetry. apply nth_overflow. lia.
  Qed.

  Lemma write_row_spec n D W p d vals : rows_ok n D W p -> (d < D)%nat -> ~ In d W -> (length vals <= n)%nat ->
    exists p', write_row p d vals = Some p' /\ p' = upd p d (fun _ => pad_to n vals) /\ rows_ok n D (d :: W) p' /\
      (forall x i, col p' x i = col p x i + fpow x d * nth i vals 0).
  Proof.
    intros (Hl & Hr & Hz) Hd HW Hv. unfold write_row.
    rewrite (nth_error_nth' _ []) by lia. cbn [opt_bind]. rewrite (Hz d Hd HW), zeros_length.
    destruct (Nat.leb_spec (length vals) n); [|lia]. cbn [guard].
    eexists. split; [reflexivity|]. split; [reflexivity|]. fold (pad_to n vals). split.
    - split; [rewrite upd_length; exact Hl|]. split.
      + unfold rect in *. apply Forall_forall. intros v Hin. apply In_nth with (d := []) in Hin as (k & Hk & <-).
        rewrite upd_length in Hk. destruct (Nat.eq_dec k d) as [->|Hn].
        * rewrite nth_upd_eq by exact Hk. apply pad_to_length; exact Hv.
        * rewrite nth_upd_neq by auto. rewrite Forall_forall in Hr. apply Hr, nth_In, Hk.
      + intros k Hk Hnin. cbn in Hnin. rewrite nth_upd_neq by auto. apply Hz; auto.
    - intros x i. unfold col. rewrite upd_length.
      rewrite (fsum_ext _ (fun k => nth i (nth k (upd p d (fun _ => pad_to n vals)) []) 0 * fpow x k)
        (fun k => nth i (nth k p []) 0 * fpow x k + (if Nat.eqb k d then fpow x d * nth i vals 0 else 0))).
      + rewrite fsum_add. f_equal. rewrite (fsum_single _ _ d) by (try lia; intros k Hk Hn; destruct (Nat.eqb_spec k d); congruence).
        rewrite Nat.eqb_refl. reflexivity.
      + intros k Hk. destruct (Nat.eqb_spec k d) as [->|Hn].
        * rewrite nth_upd_eq by lia. rewrite nth_pad_to, (Hz d Hd HW), nth_zeros. ring.
        * rewrite nth_upd_neq by auto. ring.
  Qed.

  Lemma paired_write n D Wl Wr op l r dl dr v w : rows_ok n D Wl l -> rows_ok n D Wr r -> (op < D)%nat -> (dl + dr = op)%nat ->
    ~ In dl Wl -> ~ In dr Wr ->
    paired op (upd l dl (fun _ => v)) (upd r dr (fun _ => w)) = paired op l r + ip v w.
  Proof.
    intros (Hl & _ & Hzl) (Hr & _ & Hzr) Ho Hd Hn1 Hn2. unfold paired.
    rewrite (fsum_ext _ (fun d => ip (nth d (upd l dl (fun _ => v)) []) (nth (op - d) (upd r dr (fun _ => w)) []))
       (fun d => ip (nth d l []) (nth (op - d) r []) + (if Nat.eqb d dl then ip v w else 0))).
    - rewrite fsum_add. f_equal. rewrite (fsum_single _ _ dl) by (try lia; intros k Hk Hn; destruct (Nat.eqb_spec k dl); congruence).
      rewrite Nat.eqb_refl. reflexivity.
    - intros d Hdd. destruct (Nat.eqb_spec d dl) as [->|Hn].
      + replace (op - dl)%nat with dr by lia. rewrite !nth_upd_eq by lia. rewrite (Hzl dl) by (lia || auto). rewrite ip_zeros_l. ring.
      + rewrite nth_upd_neq by auto. rewrite nth_upd_neq by lia. ring.
  Qed.
  Lemma paired_upd_out op l r dl (v : list F) : (op < dl)%nat -> paired op (upd l dl (fun _ => v)) r = paired op l r.
  Proof. intros H. apply fsum_ext. intros d Hd. rewrite nth_upd_neq by lia. reflexivity. Qed.
  Lemma paired_upd_out_r op l r dl (v : list F) : (op < dl)%nat -> paired op l (upd r dl (fun _ => v)) = paired op l r.
  Proof. intros H. apply fsum_ext. intros d Hd. rewrite (nth_upd_neq r) by lia. reflexivity. Qed.

  (** sums over the vector commitments: [x^(slot_j) * row_j[i]] *)
  Definition slots_sum (side : nat * nat -> nat) (ops : list (nat * nat)) (rows : list (list F)) (x : F) (i : nat) : F :=
    vsum (zipw (fun o row => fpow x (side o) * nth i row 0) ops rows).

  Lemma ip_pad_to n (a b : list F) : (length a <= n)%nat -> length a = length b -> ip (pad_to n a) (pad_to n b) = ip a b.
  Proof.
    intros Ha Hab. unfold pad_to. rewrite ip_app by exact Hab.
    rewrite (ip_fsum (skipn _ _) _ n) by (rewrite !skipn_length, zeros_length; lia).
    rewrite fsum_zero; [ring|]. intros i _. rewrite !nth_skipn, nth_zeros. ring.
  Qed.

  Lemma write_veccom_spec n op vecs : forall ops ws Wl Wr l r,
    rows_ok n (op + 2) Wl l -> rows_ok n (op + 2) Wr r ->
    map (@length F) ws = map (@length F) vecs -> (length vecs <= length ops)%nat ->
    Forall (fun v => (length v <= n)%nat) vecs ->
    Forall (fun '(a, b) => (a + b = op)%nat /\ ~ In a Wl /\ ~ In b Wr) ops -> NoDup (map fst ops) -> NoDup (map snd ops) ->
    exists l' r' Wl' Wr', write_veccom ops vecs ws (l, r) = Some (l', r') /\
      rows_ok n (op + 2) Wl' l' /\ rows_ok n (op + 2) Wr' r' /\
      (forall x i, col l' x i = col l x i + slots_sum fst ops vecs x i) /\
      (forall x i, col r' x i = col r x i + slots_sum snd ops ws x i) /\
      paired op l' r' = paired op l r + vsum (zipw ip ws vecs).
  Proof.
    induction vecs as [|v vecs IH]; intros ops ws Wl Wr l r Hl Hr Hws Hlen Hv Hops Hn1 Hn2.
    - destruct ws as [|w ws]; [|discriminate]. cbn [write_veccom]. exists l, r, Wl, Wr. split; [reflexivity|]. split; [exact Hl|]. split; [exact Hr|].
      unfold slots_sum. cbn. split; [|split].
      + intros x i. destruct ops; cbn; ring.
      + intros x i. destruct ops; cbn; ring.
      + ring.
    - destruct ws as [|w ws]; [discriminate|]. destruct ops as [|[ld rd] ops]; [cbn in Hlen; lia|].
      cbn [map] in Hws. injection Hws as Hwl Hws. inversion Hv as [|? ? Hv1 Hv2]; subst.
      inversion Hops as [|? ? H0 Hops2]; subst. cbn in H0. destruct H0 as (Hsum & HWl & HWr). subst op. cbn [map] in Hn1, Hn2.
      inversion Hn1 as [|? ? Hf1 Hn1']; subst. inversion Hn2 as [|? ? Hf2 Hn2']; subst. cbn [fst snd] in *.
      cbn [write_veccom]. unfold guard. rewrite Hwl, Nat.leb_refl. cbn [fst snd].
      destruct (write_row_spec n (ld + rd + 2) Wl l ld v Hl ltac:(lia) HWl Hv1) as (l1 & El & Eql & Hl1 & Cl).
      rewrite El. cbn [opt_bind]. replace (length v) with (length w) by congruence. rewrite firstn_all.
      destruct (write_row_spec n (ld + rd + 2) Wr r rd w Hr ltac:(lia) HWr ltac:(lia)) as (r1 & Er & Eqr & Hr1 & Cr).
      rewrite Er. cbn [opt_bind].
      destruct (IH ops ws (ld :: Wl) (rd :: Wr) l1 r1) as (l' & r' & Wl' & Wr' & Ew & Hl' & Hr' & Cl' & Cr' & Hp);
        try assumption.
      { cbn in Hlen. lia. }
      { apply Forall_forall. intros [a b] Hab. rewrite Forall_forall in Hops2. destruct (Hops2 _ Hab) as (H1 & H2 & H3).
        split; [exact H1|]. cbn. split; intros [->|Hin]; auto.
        - apply Hf1. apply (in_map fst) in Hab. exact Hab.
        - apply Hf2. apply (in_map snd) in Hab. exact Hab. }
      exists l', r', Wl', Wr'. split; [exact Ew|]. split; [exact Hl'|]. split; [exact Hr'|].
      split; [|split].
      + intros x i. rewrite Cl', Cl. unfold slots_sum. cbn. ring.
      + intros x i. rewrite Cr', Cr. unfold slots_sum. cbn. ring.
      + rewrite Hp. cbn [zipw vsum]. rewrite Eql, Eqr.
        rewrite (paired_write n (ld + rd + 2) Wl Wr); try assumption; try lia.
        rewrite (ip_comm w v). rewrite ip_pad_to by congruence. ring.
  Qed.
End Rows.

Section Build.
  Context {F : Field} {V : VSpace F}.
  Add Field FFbuild : (f_th F).
  Implicit Types (l r p : VecPoly F) (x y : F).

  Lemma op_vec_disjoint op : (op mod 2 = 0)%nat -> (2 <= op)%nat ->
    Forall (fun '(a, b) => (a + b = op)%nat /\ ~ In a [op + 1; op; op / 2]%nat /\ ~ In b [op + 1; 0; op / 2]%nat) (skipn 2 (op_splits op)) /\
    NoDup (map fst (skipn 2 (op_splits op))) /\ NoDup (map snd (skipn 2 (op_splits op))).
  Proof.
    intros He Hop. destruct (op_splits_snd op Hop) as [N2 _]. destruct (op_splits_fst op He Hop) as [N1 L1].
    pose proof (op_splits_sum op) as Hs.
    assert (Hops : op_splits op = (op / 2, op / 2)%nat :: (op, 0)%nat :: skipn 2 (op_splits op)) by reflexivity.
    set (ov := skipn 2 (op_splits op)) in *. clearbody ov. rewrite Hops in *. clear Hops.
    generalize dependent (op / 2)%nat. intros mid. intros. cbn [map fst snd] in *.
    inversion N2 as [|? ? M1 N2']; subst. inversion N2' as [|? ? M2 N2'']; subst.
    inversion N1 as [|? ? K1 N1']; subst. inversion N1' as [|? ? K2 N1'']; subst. cbn [In] in *.
    split; [|split; assumption]. apply Forall_forall. intros [a b] Hab.
    assert (Ha := in_map fst _ _ Hab). assert (Hb := in_map snd _ _ Hab). cbn [fst snd] in Ha, Hb.
    pose proof (Hs a b He (or_intror (or_intror Hab))) as Hsum. split; [exact Hsum|]. split; cbn [In].
    - intros [H|[H|[H|[]]]]; [lia|apply K2; rewrite H; exact Ha|]. apply K1. right. rewrite H. exact Ha.
    - intros [H|[H|[H|[]]]]; [lia|apply M2; rewrite H; exact Hb|]. apply M1. right. rewrite H. exact Hb.
  Qed.

  Lemma map_seq_le n (f : nat -> F) : (length (map f (seq 0 n)) <= n)%nat.
  Proof. rewrite map_length, seq_length. lia. Qed.
  Lemma map_seq_len n (f : nat -> F) : length (map f (seq 0 n)) = n.
  Proof. rewrite map_length, seq_length. lia. Qed.
  Lemma pad_to_full n (v : list F) : length v = n -> pad_to n v = v.
  Proof. intros H. unfold pad_to. rewrite skipn_all2 by (rewrite zeros_length; lia). apply app_nil_r. Qed.

  Lemma build_polys_spec ncomm n y y_inv (aL aR aO sL sR : list F) (fl : Flat F) (vecs : list (list F)) :
    let op := op_degree_of ncomm in
    let mid := (op / 2)%nat in
    let op_vec := skipn 2 (op_splits op) in
    length vecs = ncomm -> map (@length F) (wVC fl) = map (@length F) vecs ->
    Forall (fun v => (length v <= n)%nat) vecs ->
    exists l r t, build_polys op (op_splits op) n y y_inv aL aR aO sL sR fl vecs = Some (l, r, t) /\
      length t = (2 * (op + 1) + 1)%nat /\
      (forall x, exists lx rx, vp_eval l x = Some lx /\ vp_eval r x = Some rx /\ length lx = n /\ length rx = n /\
         poly_eval t x = ip lx rx /\
         (forall i, (i < n)%nat -> nth i lx 0 =
            fpow x mid * (nth i aL 0 + fpow y_inv i * nth i (wR fl) 0) + fpow x op * nth i aO 0
            + fpow x (op + 1) * nth i sL 0 + slots_sum fst op_vec vecs x i) /\
         (forall i, (i < n)%nat -> nth i rx 0 =
            fpow x mid * (fpow y i * nth i aR 0 + nth i (wL fl) 0) + (nth i (wO fl) 0 - fpow y i)
            + fpow x (op + 1) * (fpow y i * nth i sR 0) + slots_sum snd op_vec (wVC fl) x i)) /\
      nth op t 0 = fsum n (fun i => (nth i aL 0 + fpow y_inv i * nth i (wR fl) 0) * (fpow y i * nth i aR 0 + nth i (wL fl) 0)
                                   + nth i aO 0 * (nth i (wO fl) 0 - fpow y i))
                   + vsum (zipw ip (wVC fl) vecs).
  Proof.
    intros op mid op_vec Hlen Hw Hvn.
    assert (He : (op mod 2 = 0)%nat) by (unfold op; rewrite op_degree_even, Nat.mul_comm; apply Nat.mod_mul; lia).
    assert (Hop : (2 <= op)%nat) by (unfold op; rewrite op_degree_even; lia).
    assert (Hmid : (1 <= mid /\ mid + mid = op)%nat).
    { unfold mid. pose proof (Nat.div_mod op 2 ltac:(lia)). lia. }
    destruct (op_vec_disjoint op He Hop) as (Hdis & Nd1 & Nd2).
    unfold build_polys. change (nth 0 (op_splits op) (0, 0)%nat) with (mid, mid). change (nth 1 (op_splits op) (0, 0)%nat) with (op, 0)%nat.
    cbn [fst snd].
    set (v1 := map (fun i => nth i aL 0 + nth i (exp_iter y_inv n) 0 * nth i (wR fl) 0) (seq 0 n)).
    set (v2 := map (fun i => nth i (exp_iter y n) 0 * nth i aR 0 + nth i (wL fl) 0) (seq 0 n)).
    set (v3 := map (fun i => nth i aO 0) (seq 0 n)).
    set (v4 := map (fun i => nth i (wO fl) 0 - nth i (exp_iter y n) 0) (seq 0 n)).
    set (v5 := map (fun i => nth i sL 0) (seq 0 n)).
    set (v6 := map (fun i => nth i (exp_iter y n) 0 * nth i sR 0) (seq 0 n)).
    pose proof (vp_zero_ok (F:=F) n (op + 1)) as H0. replace (op + 1 + 1)%nat with (op + 2)%nat in H0 by lia.
    destruct (write_row_spec n (op + 2) [] _ mid v1 H0 ltac:(lia) ltac:(intros []) (map_seq_le _ _)) as (l1 & E1 & Q1 & R1 & C1).
    rewrite E1. cbn [opt_bind].
    destruct (write_row_spec n (op + 2) [] _ mid v2 H0 ltac:(lia) ltac:(intros []) (map_seq_le _ _)) as (r1 & E2 & Q2 & R2 & C2).
    rewrite E2. cbn [opt_bind].
    destruct (write_row_spec n (op + 2) _ _ op v3 R1 ltac:(lia) ltac:(intros [?|[]]; lia) (map_seq_le _ _)) as (l2 & E3 & Q3 & R3 & C3).
    rewrite E3. cbn [opt_bind].
    destruct (write_row_spec n (op + 2) _ _ 0 v4 R2 ltac:(lia) ltac:(intros [?|[]]; lia) (map_seq_le _ _)) as (r2 & E4 & Q4 & R4 & C4).
    rewrite E4. cbn [opt_bind].
    destruct (write_row_spec n (op + 2) _ _ (op + 1) v5 R3 ltac:(lia) ltac:(intros [?|[?|[]]]; lia) (map_seq_le _ _)) as (l3 & E5 & Q5 & R5 & C5).
    rewrite E5. cbn [opt_bind].
    destruct (write_row_spec n (op + 2) _ _ (op + 1) v6 R4 ltac:(lia) ltac:(intros [?|[?|[]]]; lia) (map_seq_le _ _)) as (r3 & E6 & Q6 & R6 & C6).
    rewrite E6. cbn [opt_bind].
    destruct (write_veccom_spec n op vecs op_vec (wVC fl) _ _ l3 r3 R5 R6 Hw) as (l & r & Wl & Wr & E7 & R7 & R8 & C7 & C8 & HP).
    { unfold op_vec. rewrite skipn_length, op_splits_length by exact Hop. pose proof (op_degree_ge ncomm). fold op in H. lia. }
    { exact Hvn. } { exact Hdis. } { exact Nd1. } { exact Nd2. }
    fold op_vec. rewrite E7. cbn [opt_bind].
    destruct R7 as (Ll & Rl & _). destruct R8 as (Lr & Rr & _).
    assert (Hnl : l <> []) by (intros ->; cbn in Ll; lia). assert (Hnr : r <> []) by (intros ->; cbn in Lr; lia).
    rewrite (vp_inner_product_Some n l r Hnl Hnr Rl Rr). cbn [opt_bind].
    rewrite map_length, seq_length. unfold vp_deg. rewrite Ll, Lr.
    replace (Nat.eqb (op + 2 - 1 + (op + 2 - 1) + 1 - 1) (2 * (op + 1))) with true by (symmetry; apply Nat.eqb_eq; lia).
    cbn [guard]. eexists l, r, _. split; [reflexivity|]. split; [rewrite map_length, seq_length; lia|]. split.
    - intros x. pose proof (vp_eval_Some n l x Hnl Rl) as El. pose proof (vp_eval_Some n r x Hnr Rr) as Er.
      eexists _, _. split; [exact El|]. split; [exact Er|].
      split; [apply map_seq_len|]. split; [apply map_seq_len|]. split; [|split].
      + eapply (vp_inner_product_eval n l r x); try eassumption.
        rewrite (vp_inner_product_Some n l r Hnl Hnr Rl Rr). unfold vp_deg. rewrite Ll, Lr. reflexivity.
      + intros i Hi. rewrite (vp_eval_nth n l x _ i Hnl Rl El Hi). fold (col l x i).
        rewrite C7, C5, C3, C1, (col_zero n (op + 2)) by exact H0. unfold v1, v3, v5.
        rewrite (nth_map_seq (fun i => nth i aL 0 + nth i (exp_iter y_inv n) 0 * nth i (wR fl) 0)) by exact Hi.
        rewrite !nth_map_seq, nth_exp_iter by exact Hi. ring.
      + intros i Hi. rewrite (vp_eval_nth n r x _ i Hnr Rr Er Hi). fold (col r x i).
        rewrite C8, C6, C4, C2, (col_zero n (op + 2)) by exact H0. unfold v2, v4, v6.
        rewrite (nth_map_seq (fun i => nth i (exp_iter y n) 0 * nth i aR 0 + nth i (wL fl) 0)) by exact Hi.
        rewrite (nth_map_seq (fun i => nth i (exp_iter y n) 0 * nth i sR 0)) by exact Hi.
        rewrite !nth_map_seq, nth_exp_iter by exact Hi. cbn [fpow]. ring.
    - rewrite nth_map_seq by lia. fold (paired op l r). rewrite HP. f_equal.
      rewrite Q5, Q6, paired_upd_out, paired_upd_out_r by lia.
      rewrite Q3, Q4.
      rewrite (paired_write n (op + 2) [mid] [mid]); try assumption; try lia; [|intros [?|[]]; lia|intros [?|[]]; lia].
      rewrite Q1, Q2.
      rewrite (paired_write n (op + 2) [] []); try assumption; try lia; [|intros []|intros []].
      rewrite (paired_zero n (op + 2)) by (try lia; exact H0).
      rewrite !pad_to_full by apply map_seq_len.
      rewrite (ip_fsum v1 v2 n), (ip_fsum v3 v4 n) by (unfold v1, v2, v3, v4; rewrite !map_seq_len; lia).
      rewrite fsum_add. 
      rewrite (fsum_ext n (fun i => nth i v1 0 * nth i v2 0) (fun i => (nth i aL 0 + fpow y_inv i * nth i (wR fl) 0) * (fpow y i * nth i aR 0 + nth i (wL fl) 0))).
      2:{ intros i Hi. unfold v1, v2. rewrite (nth_map_seq (fun i => nth i aL 0 + nth i (exp_iter y_inv n) 0 * nth i (wR fl) 0)) by exact Hi.
          rewrite (nth_map_seq (fun i => nth i (exp_iter y n) 0 * nth i aR 0 + nth i (wL fl) 0)) by exact Hi.
          rewrite !nth_exp_iter by exact Hi. reflexivity. }
      rewrite (fsum_ext n (fun i => nth i v3 0 * nth i v4 0) (fun i => nth i aO 0 * (nth i (wO fl) 0 - fpow y i))).
      2:{ intros i Hi. unfold v3, v4. rewrite !nth_map_seq by exact Hi. rewrite !nth_exp_iter by exact Hi. reflexivity. }
      ring.
  Qed.

  (** The value the prover's debug check compares with (prover.rs 1061-1106). *)
  Lemma t2_value_spec n y (aL aR aO : list F) (fl : Flat F) (vecs : list (list F)) : y <> 0 ->
    length aL = n -> length aR = n -> length aO = n -> length (wL fl) = n -> length (wR fl) = n -> length (wO fl) = n ->
    fsum n (fun i => (nth i aL 0 + fpow (finv y) i * nth i (wR fl) 0) * (fpow y i * nth i aR 0 + nth i (wL fl) 0)
                     + nth i aO 0 * (nth i (wO fl) 0 - fpow y i)) + vsum (zipw ip (wVC fl) vecs)
    = t2_value n y (finv y) aL aR aO fl vecs.
  Proof.
    intros Hy HL HR HO HwL HwR HwO. unfold t2_value.
    rewrite (ip_fsum (wL fl) aL n), (ip_fsum (wR fl) aR n), (ip_fsum (wO fl) aO n) by lia.
    rewrite (ip_fsum aL _ n), (ip_fsum aO _ n), (ip_fsum (zipw fmul (wR fl) _) _ n) by lia.
    match goal with |- _ = ?a + ?b + ?c + ?d + ?e - ?f + ?g =>
      transitivity ((a + b + c + e - f + g) + d); [|ring] end. f_equal.
    rewrite <- !fsum_add, <- fsum_sub, <- fsum_add. apply fsum_ext. intros i Hi.
    rewrite !nth_zipw_mul, !nth_exp_iter by exact Hi.
    assert (H1 : fpow (finv y) i * fpow y i = 1) by (rewrite <- fpow_mul_l; rewrite finv_l by exact Hy; apply fpow_1_l).
    transitivity (nth i aL 0 * nth i aR 0 * fpow y i + nth i aL 0 * nth i (wL fl) 0
                  + (fpow (finv y) i * fpow y i) * (nth i (wR fl) 0 * nth i aR 0) + fpow (finv y) i * nth i (wR fl) 0 * nth i (wL fl) 0
                  + nth i aO 0 * nth i (wO fl) 0 - nth i aO 0 * fpow y i); [ring|].
    rewrite H1. ring.
  Qed.
End Build.
