(** * Group algebra behind the R1CS verification equation *)
From Verif Require Import R1CS CSSpec UtilProofs R1CSPoly IPPSpec IPPProofs.
Local Open Scope V_scope.

Section Alg.
  Context {F : Field} {V : VSpace F}.
  Add Field FFalg : (f_th F).
  Implicit Types (G H Ls : list V) (P : V).

  Lemma msm_nth (cs : list F) G n : length cs = n -> msm cs G = gsum n (fun i => nth i cs 0%F ** nth i G 0).
  Proof. intros <-. apply msm_gsum. lia. Qed.

  (** factor of generator [i]: 1 in the first phase, [u] afterwards *)
  Definition gf (n1 : nat) (u : F) (i : nat) : F := if (i <? n1)%nat then 1%F else u.

  Lemma gsum_phases n1 n u (a : nat -> F) (G : nat -> V) : (n1 <= n)%nat ->
    gsum n (fun i => (gf n1 u i * a i)%F ** G i) =
    gsum n1 (fun i => a i ** G i) + u ** gsum (n - n1) (fun i => a (n1 + i)%nat ** G (n1 + i)%nat).
  Proof.
    intros Hn. replace n with (n1 + (n - n1))%nat at 1 by lia. rewrite gsum_split. f_equal.
    - apply gsum_ext. intros i Hi. unfold gf. destruct (Nat.ltb_spec i n1); [|lia]. vring.
    - rewrite <- gsum_smul. apply gsum_ext. intros i Hi. unfold gf. destruct (Nat.ltb_spec (n1 + i) n1); [lia|]. vring.
  Qed.

  Variable pc : PedersenGens V.
  Variable Grow Hrow : list V.
  Let Gi i := nth i Grow 0.
  Let Hi i := nth i Hrow 0.

  Lemma commit_I_gsum b (aL aR : list F) n : length aL = n -> length aR = n ->
    (n <= length Grow)%nat ->
    commit_I pc b aL aR (firstn n Grow) (firstn n Hrow) =
    b ** pcB_blinding pc + gsum n (fun i => nth i aL 0%F ** Gi i) + gsum n (fun i => nth i aR 0%F ** Hi i).
  Proof.
    intros HL HR Hg. unfold commit_I. cbn [msm].
    rewrite msm_app by (rewrite firstn_length; lia). rewrite !msm_firstn_r by lia. rewrite (msm_nth aL _ n), (msm_nth aR _ n) by assumption. unfold Gi, Hi. vring.
  Qed.
  Lemma commit_O_gsum b (aO : list F) n : length aO = n ->
    commit_O pc b aO (firstn n Grow) = b ** pcB_blinding pc + gsum n (fun i => nth i aO 0%F ** Gi i).
  Proof. intros HO. unfold commit_O. cbn [msm]. rewrite msm_firstn_r by lia. rewrite (msm_nth aO _ n) by assumption. reflexivity. Qed.

  Lemma skipn_commit (a : list F) (row : list V) n1 n : length a = n -> (n1 <= n)%nat ->
    msm (skipn n1 a) (skipn n1 (firstn n row)) = gsum (n - n1) (fun i => nth (n1 + i) a 0%F ** nth (n1 + i) row 0).
  Proof.
    intros Ha Hn. rewrite (msm_nth _ _ (n - n1)) by (rewrite skipn_length; lia). apply gsum_ext. intros i Hi'.
    rewrite !nth_skipn, nth_firstn. destruct (Nat.ltb_spec (n1 + i) n); [reflexivity|lia].
  Qed.

  (** both phases of a pair commitment *)
  Lemma commit_I_phases (ph : bool) b1 b2 (aL aR : list F) n1 n u :
    length aL = n -> length aR = n -> (n1 <= n)%nat -> (n <= length Grow)%nat -> ph = (0 <? n - n1)%nat ->
    commit_I pc b1 (firstn n1 aL) (firstn n1 aR) (firstn n1 Grow) (firstn n1 Hrow) +
    u ** (if ph then commit_I pc b2 (skipn n1 aL) (skipn n1 aR) (skipn n1 (firstn n Grow)) (skipn n1 (firstn n Hrow)) else 0) =
    (b1 + u * (if ph then b2 else 0))%F ** pcB_blinding pc + gsum n (fun i => (gf n1 u i * nth i aL 0)%F ** Gi i)
    + gsum n (fun i => (gf n1 u i * nth i aR 0)%F ** Hi i).
  Proof.
    intros HL HR Hn Hg Hph. rewrite !(gsum_phases n1 n u _ _ Hn).
    rewrite (commit_I_gsum b1 _ _ n1) by (rewrite ?firstn_length; lia).
    rewrite (gsum_ext n1 (fun i => nth i (firstn n1 aL) 0%F ** Gi i) (fun i => nth i aL 0%F ** Gi i))
      by (intros i Hi'; rewrite nth_firstn; destruct (Nat.ltb_spec i n1); [reflexivity|lia]).
    rewrite (gsum_ext n1 (fun i => nth i (firstn n1 aR) 0%F ** Hi i) (fun i => nth i aR 0%F ** Hi i))
      by (intros i Hi'; rewrite nth_firstn; destruct (Nat.ltb_spec i n1); [reflexivity|lia]).
    destruct ph.
    - unfold commit_I. cbn [msm]. rewrite msm_app by (rewrite !skipn_length, firstn_length; lia).
      rewrite !(skipn_commit _ _ n1 n) by assumption. fold Gi. unfold Gi, Hi. vring.
    - symmetry in Hph. apply Nat.ltb_ge in Hph. replace (n - n1)%nat with O by lia. cbn [gsum]. vring.
  Qed.
  Lemma commit_O_phases (ph : bool) b1 b2 (aO : list F) n1 n u :
    length aO = n -> (n1 <= n)%nat -> ph = (0 <? n - n1)%nat ->
    commit_O pc b1 (firstn n1 aO) (firstn n1 Grow) +
    u ** (if ph then commit_O pc b2 (skipn n1 aO) (skipn n1 (firstn n Grow)) else 0) =
    (b1 + u * (if ph then b2 else 0))%F ** pcB_blinding pc + gsum n (fun i => (gf n1 u i * nth i aO 0)%F ** Gi i).
  Proof.
    intros HO Hn Hph. rewrite !(gsum_phases n1 n u _ _ Hn).
    rewrite (commit_O_gsum b1 _ n1) by (rewrite ?firstn_length; lia).
    rewrite (gsum_ext n1 (fun i => nth i (firstn n1 aO) 0%F ** Gi i) (fun i => nth i aO 0%F ** Gi i))
      by (intros i Hi'; rewrite nth_firstn; destruct (Nat.ltb_spec i n1); [reflexivity|lia]).
    destruct ph.
    - unfold commit_O. cbn [msm]. rewrite !(skipn_commit _ _ n1 n) by assumption. unfold Gi. vring.
    - symmetry in Hph. apply Nat.ltb_ge in Hph. replace (n - n1)%nat with O by lia. cbn [gsum]. vring.
  Qed.

  (** the vector commitments, weighted by their slots *)
  Lemma veccoms_sum (ops : list (nat * nat)) (vo : list (F * list F)) (x u : F) n1 n :
    (n1 <= n)%nat -> Forall (fun bv => (length (snd bv) <= n1)%nat) vo ->
    msm (zipw (fun o _ => fpow x (fst o)) ops vo) (map (fun bv => fst bv ** pcB_blinding pc + msm (snd bv) Grow) vo) =
    vsum (zipw (fun o bv => (fpow x (fst o) * fst bv)%F) ops vo) ** pcB_blinding pc +
    gsum n (fun i => (gf n1 u i * slots_sum fst ops (map snd vo) x i)%F ** Gi i).
  Proof.
    intros Hn Hlen. revert ops. induction vo as [|[b v] vo IH]; intros [|o ops].
    - cbn. rewrite gsum_zero; [vring|]. intros. unfold slots_sum. cbn. vring.
    - cbn. rewrite gsum_zero; [vring|]. intros. unfold slots_sum. cbn. vring.
    - cbn. rewrite gsum_zero; [vring|]. intros. unfold slots_sum. cbn. vring.
    - inversion Hlen as [|? ? Hv Hlen']; subst. cbn [map zipw msm vsum fst snd] in *. rewrite (IH Hlen' ops).
      rewrite (gsum_ext n (fun i => (gf n1 u i * slots_sum fst (o :: ops) (v :: map snd vo) x i)%F ** Gi i)
        (fun i => fpow x (fst o) ** (nth i v 0%F ** Gi i) + (gf n1 u i * slots_sum fst ops (map snd vo) x i)%F ** Gi i)).
      2:{ intros i Hi'. unfold slots_sum. cbn [zipw vsum]. unfold gf. destruct (Nat.ltb_spec i n1); [vring|].
          rewrite (nth_overflow v) by lia. vring. }
      rewrite gsum_add, gsum_smul. rewrite (msm_gsum v Grow n) by lia. unfold Gi. vring.
  Qed.

  (** homomorphic evaluation of the T commitments *)
  Lemma msm_filter (f : nat -> F) (p : nat -> V) op ds : p op = 0 ->
    msm (map f (filter (fun d => negb (Nat.eqb d op)) ds)) (map p (filter (fun d => negb (Nat.eqb d op)) ds)) =
    msm (map f ds) (map p ds).
  Proof.
    intros H0. induction ds as [|d ds IH]; [reflexivity|]. cbn [filter]. destruct (Nat.eqb_spec d op) as [->|]; cbn [negb map msm].
    - rewrite IH, H0. vring.
    - rewrite IH. reflexivity.
  Qed.
End Alg.

Section Blinding.
  Context {F : Field}.
  Add Field FFbl : (f_th F).
  Local Open Scope F_scope.

  (* vocabulary of specifications and proofs, no code modelled *)
  Definition oval (t : option F) : F := match t with Some v => v | None => 0 end.
  (* vocabulary of specifications and proofs, no code modelled *)
  Definition tev (ts : list (option F)) (x : F) : F := fsum (length ts) (fun d => fpow x d * oval (nth d ts None)).
  Lemma eval_terms_tev ts : forall c x, eval_terms ts c x = c * tev ts x.
  Proof.
    induction ts as [|t ts IH]; intros c x; [cbn; ring|]. cbn [eval_terms]. rewrite IH. unfold tev. cbn [length].
    rewrite fsum_S_l. cbn [nth fpow].
    rewrite (fsum_ext _ (fun i => x * fpow x i * oval (nth i ts None)) (fun i => x * (fpow x i * oval (nth i ts None)))) by (intros; ring).
    rewrite fsum_scale. destruct t; cbn [oval]; ring.
  Qed.
  Lemma tev_upd ts d b x : nth d ts None = None -> (d < length ts)%nat ->
    tev (upd ts d (fun _ => Some b)) x = tev ts x + fpow x d * b.
  Proof.
    intros Hn Hd. unfold tev. rewrite upd_length.
    rewrite (fsum_ext _ (fun k => fpow x k * oval (nth k (upd ts d (fun _ => Some b)) None))
      (fun k => fpow x k * oval (nth k ts None) + (if Nat.eqb k d then fpow x d * b else 0))).
    - rewrite fsum_add. f_equal. rewrite (fsum_single _ _ d) by (try lia; intros k Hk Hne; destruct (Nat.eqb_spec k d); congruence).
      rewrite Nat.eqb_refl. reflexivity.
    - intros k Hk. destruct (Nat.eqb_spec k d) as [->|Hne].
      + rewrite nth_upd_eq by lia. rewrite Hn. cbn. ring.
      + rewrite nth_upd_neq by auto. ring.
  Qed.
  Lemma tev_veccoms (ops : list (nat * nat)) : forall (vo : list (F * list F)) ts x, NoDup (map fst ops) ->
    Forall (fun o => nth (fst o) ts None = None /\ (fst o < length ts)%nat) ops ->
    tev (fold_left (fun e '(ldrd, bv) => upd e (fst ldrd) (fun _ => Some (fst bv))) (combine ops vo) ts) x =
      tev ts x + vsum (zipw (fun o bv => fpow x (fst o) * fst bv) ops vo) /\
    (forall d, ~ In d (map fst ops) -> nth d (fold_left (fun e '(ldrd, bv) => upd e (fst ldrd) (fun _ => Some (fst bv))) (combine ops vo) ts) None = nth d ts None) /\
    length (fold_left (fun e '(ldrd, bv) => upd e (fst ldrd) (fun _ => Some (fst bv))) (combine ops vo) ts) = length ts.
  Proof.
    induction ops as [|o ops IH]; intros vo ts x Hnd Hts; [destruct vo; cbn [combine fold_left zipw vsum]; (split; [ring|split; reflexivity])|].
    destruct vo as [|bv vo]; [cbn [combine fold_left zipw vsum]; (split; [ring|split; reflexivity])|]. cbn [combine fold_left zipw vsum map].
    cbn [map] in Hnd. inversion Hnd as [|? ? Hni Hnd']; subst. inversion Hts as [|? ? [Hn Hl] Hts']; subst.
    destruct (IH vo (upd ts (fst o) (fun _ => Some (fst bv))) x Hnd') as (H1 & H2 & H3).
    { apply Forall_forall. intros o' Ho'. rewrite upd_length. rewrite Forall_forall in Hts'. destruct (Hts' o' Ho') as [Ha Hb].
      split; [|exact Hb]. rewrite nth_upd_neq; [exact Ha|]. intros Heq. apply Hni. rewrite Heq. apply in_map. exact Ho'. }
    split; [|split].
    - rewrite H1, tev_upd by assumption. ring.
    - intros d Hd. cbn [In] in Hd. rewrite H2 by auto. apply nth_upd_neq. auto.
    - rewrite H3, upd_length. reflexivity.
  Qed.

  Lemma e_blinding_spec ncomm i_b o_b s_b (vo : list (F * list F)) x :
    let op := op_degree_of ncomm in
    eval_terms (e_terms op (op_splits op) i_b o_b s_b vo) 1 x =
    fpow x (op / 2) * i_b + fpow x op * o_b + fpow x (op + 1) * s_b
    + vsum (zipw (fun o bv => fpow x (fst o) * fst bv) (skipn 2 (op_splits op)) vo).
  Proof.
    intros op.
    assert (He : (op mod 2 = 0)%nat) by (unfold op; rewrite op_degree_even, Nat.mul_comm; apply Nat.mod_mul; lia).
    assert (Hop : (2 <= op)%nat) by (unfold op; rewrite op_degree_even; lia).
    assert (Hmid : (1 <= op / 2 /\ op / 2 + op / 2 = op)%nat).
    { pose proof (Nat.div_mod op 2 ltac:(lia)). lia. }
    destruct (op_vec_disjoint op He Hop) as (Hdis & Nd1 & Nd2). clearbody op.
    rewrite eval_terms_tev. unfold e_terms.
    change (nth 0 (op_splits op) (0, 0)%nat) with (op / 2, op / 2)%nat. change (nth 1 (op_splits op) (0, 0)%nat) with (op, 0)%nat.
    cbn [fst snd]. set (mid := (op / 2)%nat) in *. set (ov := skipn 2 (op_splits op)) in *. clearbody mid ov.
    assert (Hr : forall d, nth d (repeat (@None F) (op + 2)) None = None) by (intros d; rewrite nth_repeat_any; destruct (d <? op + 2)%nat; reflexivity).
    set (e0 := repeat (@None F) (op + 2)) in *. assert (L0 : length e0 = (op + 2)%nat) by apply repeat_length.
    set (e1 := upd e0 mid (fun _ => Some i_b)).
    assert (L1 : length e1 = (op + 2)%nat) by (unfold e1; rewrite upd_length; exact L0).
    assert (N1 : forall d, d <> mid -> nth d e1 None = None) by (intros d Hd; unfold e1; rewrite nth_upd_neq by auto; apply Hr).
    set (e2 := upd e1 op (fun _ => Some o_b)).
    assert (L2 : length e2 = (op + 2)%nat) by (unfold e2; rewrite upd_length; exact L1).
    assert (N2 : forall d, d <> mid -> d <> op -> nth d e2 None = None) by (intros d Hd Hd2; unfold e2; rewrite nth_upd_neq by auto; auto).
    destruct (tev_veccoms ov vo e2 x Nd1) as (T1 & T2 & T3).
    { apply Forall_forall. intros [a b] Hab. rewrite Forall_forall in Hdis. specialize (Hdis _ Hab). cbv beta iota in Hdis.
      destruct Hdis as (Hs & Ha & _). cbn [fst]. rewrite L2. split; [|lia]. apply N2; intros ->; apply Ha; cbn [In]; auto. }
    rewrite tev_upd.
    - rewrite T1. unfold e2. rewrite tev_upd; [|apply N1; lia|rewrite L1; lia].
      unfold e1. rewrite tev_upd; [|apply Hr|rewrite L0; lia].
      replace (tev e0 x) with (0 : F); [ring|]. symmetry. unfold tev. apply fsum_zero. intros. rewrite Hr. cbn. ring.
    - rewrite T2; [apply N2; lia|]. intros Hin. apply in_map_iff in Hin as ([a b] & Ha & Hab).
      rewrite Forall_forall in Hdis. specialize (Hdis _ Hab). cbv beta iota in Hdis. cbn [fst] in Ha. lia.
    - rewrite T3, L2. lia.
  Qed.
End Blinding.

Section Mega.
  Context {F : Field} {V : VSpace F}.
  Add Field FFmega : (f_th F).

  Lemma mega_algebra (pc : PedersenGens V) (Gr Hr : list V) (N n n1 mid op : nat)
      (u x y w rr a b tx txb eb wcv delta : F) (lv rv yw us : list F)
      (aL aR aO sL sR wLi wOi : nat -> F) (slL slR : nat -> F)
      (VCs Vs Ts : V) (ib ob sb vcb vval vblind tall tblind : F)
      (AI1 AO1 S1' AI2 AO2 S2' : V) (LR : V) (svec' : list F) :
    (n <= N)%nat -> length us = N -> (N <= length Gr)%nat -> (N <= length Hr)%nat -> y <> 0%F ->
    length lv = N -> length rv = N -> length yw = N -> length svec' = N ->
    (forall i, (i < N)%nat -> nth i us 0%F = gf n1 u i) ->
    AI1 + u ** AI2 = ib ** pcB_blinding pc + gsum n (fun i => (gf n1 u i * aL i)%F ** nth i Gr 0)
                     + gsum n (fun i => (gf n1 u i * aR i)%F ** nth i Hr 0) ->
    AO1 + u ** AO2 = ob ** pcB_blinding pc + gsum n (fun i => (gf n1 u i * aO i)%F ** nth i Gr 0) ->
    S1' + u ** S2' = sb ** pcB_blinding pc + gsum n (fun i => (gf n1 u i * sL i)%F ** nth i Gr 0)
                     + gsum n (fun i => (gf n1 u i * sR i)%F ** nth i Hr 0) ->
    VCs = vcb ** pcB_blinding pc + gsum n (fun i => (gf n1 u i * slL i)%F ** nth i Gr 0) ->
    eb = (fpow x mid * ib + fpow x op * ob + fpow x (op + 1) * sb + vcb)%F ->
    (forall i, (i < n)%nat -> nth i lv 0%F = (fpow x mid * (aL i + nth i yw 0) + fpow x op * aO i + fpow x (op + 1) * sL i + slL i)%F) ->
    (forall i, (n <= i < N)%nat -> nth i lv 0%F = 0%F /\ nth i yw 0%F = 0%F) ->
    (forall i, (i < n)%nat -> nth i rv 0%F = (fpow x mid * (fpow y i * aR i + wLi i) + (wOi i - fpow y i) + fpow x (op + 1) * (fpow y i * sR i) + slR i)%F) ->
    (forall i, (n <= i < N)%nat -> nth i rv 0%F = (- fpow y i)%F /\ wLi i = 0%F /\ wOi i = 0%F /\ slR i = 0%F) ->
    tx = ip lv rv ->
    Vs = (rr * fpow x op)%F ** (vval ** pcB pc + vblind ** pcB_blinding pc) ->
    Ts = rr ** (tall ** pcB pc + tblind ** pcB_blinding pc) ->
    txb = (tblind + fpow x op * vblind)%F ->
    ipp_statement (w ** pcB pc) us (zipw fmul (exp_iter (finv y) N) us) (firstn N Gr) (firstn N Hr) lv rv
      = ((a * b)%F ** (w ** pcB pc) + a ** msm svec' (scaled us (firstn N Gr))
         + b ** msm (rev svec') (scaled (zipw fmul (exp_iter (finv y) N) us) (firstn N Hr))) - LR ->
    VCs + (fpow x mid ** AI1 + (fpow x op ** AO1 + (fpow x (op + 1) ** S1' + ((fpow x mid * u)%F ** AI2 + ((fpow x op * u)%F ** AO2 + ((fpow x (op + 1) * u)%F ** S2' + 0))))))
    + Vs + Ts + LR
    + ((w * (tx - a * b) + rr * (fpow x op * (wcv + delta) - tx))%F ** pcB pc + (- eb - rr * txb)%F ** pcB_blinding pc)
    + msm (zipw (fun '(yw, u1) si => (u1 * (fpow x mid * yw - a * si))%F) (combine yw us) svec') (firstn N Gr)
    + msm (map (fun i => (nth i us 0 * (nth i (exp_iter (finv y) N) 0 * (fpow x mid * wLi i + 1 * wOi i + slR i - b * nth i (rev svec') 0) - 1))%F) (seq 0 N)) (firstn N Hr)
    = (rr * (fpow x op * (vval + wcv + delta) - (tx - tall)))%F ** pcB pc.
  Proof.
    intros Hn Hus HG HH Hy Hlv Hrv Hyw Hsv Husi HAI HAO HS HVC Heb Hl Hl0 Hr' Hr0 Htx HVs HTs Htxb Hipp.
    set (sG := fun i => nth i (firstn N Gr) 0). set (sH := fun i => nth i (firstn N Hr) 0).
    assert (EG : forall i, (i < N)%nat -> nth i Gr 0 = sG i).
    { intros i Hi. unfold sG. rewrite nth_firstn. destruct (Nat.ltb_spec i N); [reflexivity|lia]. }
    assert (EH : forall i, (i < N)%nat -> nth i Hr 0 = sH i).
    { intros i Hi. unfold sH. rewrite nth_firstn. destruct (Nat.ltb_spec i N); [reflexivity|lia]. }
    assert (LG : length (firstn N Gr) = N) by (rewrite firstn_length; lia).
    assert (LH : length (firstn N Hr) = N) by (rewrite firstn_length; lia).
    (* extend the sums over the gates to N *)
    assert (Gx : forall c : nat -> F, gsum n (fun i => c i ** nth i Gr 0) = gsum N (fun i => (if (i <? n)%nat then c i else 0%F) ** sG i)).
    { intros c. rewrite (gsum_extend n N (fun i => (if (i <? n)%nat then c i else 0%F) ** sG i)).
      - apply gsum_ext. intros i Hi. destruct (Nat.ltb_spec i n); [|lia]. rewrite EG by lia. reflexivity.
      - exact Hn.
      - intros i Hi. destruct (Nat.ltb_spec i n); [lia|]. vring. }
    assert (Hx : forall c : nat -> F, gsum n (fun i => c i ** nth i Hr 0) = gsum N (fun i => (if (i <? n)%nat then c i else 0%F) ** sH i)).
    { intros c. rewrite (gsum_extend n N (fun i => (if (i <? n)%nat then c i else 0%F) ** sH i)).
      - apply gsum_ext. intros i Hi. destruct (Nat.ltb_spec i n); [|lia]. rewrite EH by lia. reflexivity.
      - exact Hn.
      - intros i Hi. destruct (Nat.ltb_spec i n); [lia|]. vring. }
    rewrite !Gx in HAI, HAO, HS, HVC. rewrite !Hx in HAI, HS.
    (* the inner-product statement *)
    unfold ipp_statement in Hipp.
    rewrite (msm_nth (zipw fmul lv us) _ N), (msm_nth (zipw fmul rv _) _ N), (msm_nth svec' _ N), (msm_nth (rev svec') _ N) in Hipp
      by (rewrite ?zipw_length, ?rev_length, ?exp_iter_length; lia).
    rewrite (msm_nth (zipw _ (combine yw us) svec') _ N) by (rewrite zipw_length, combine_length; lia).
    rewrite (msm_nth (map _ (seq 0 N)) _ N) by (rewrite map_length, seq_length; lia).
    rewrite (gsum_ext N (fun i => nth i (map (fun i => (nth i us 0 * (nth i (exp_iter (finv y) N) 0 * (fpow x mid * wLi i + 1 * wOi i + slR i - b * nth i (rev svec') 0) - 1))%F) (seq 0 N)) 0%F ** nth i (firstn N Hr) 0)
       (fun i => (gf n1 u i * (fpow (finv y) i * (fpow x mid * wLi i + wOi i + slR i - b * nth i (rev svec') 0) - 1))%F ** sH i)).
    2:{ intros i Hi. rewrite (nth_map_seq (fun i => (nth i us 0 * (nth i (exp_iter (finv y) N) 0 * (fpow x mid * wLi i + 1 * wOi i + slR i - b * nth i (rev svec') 0) - 1))%F)) by exact Hi.
        rewrite Husi, nth_exp_iter by exact Hi. unfold sH. vring. }
    rewrite (gsum_ext N (fun i => nth i (zipw (fun '(yw, u1) si => (u1 * (fpow x mid * yw - a * si))%F) (combine yw us) svec') 0%F ** nth i (firstn N Gr) 0)
       (fun i => (gf n1 u i * (fpow x mid * nth i yw 0 - a * nth i svec' 0))%F ** sG i)).
    2:{ intros i Hi. rewrite (nth_zipw (fun '(yw, u1) si => (u1 * (fpow x mid * yw - a * si))%F) (combine yw us) svec' i (0, 0)%F 0%F 0%F)
          by (rewrite ?combine_length; lia).
        rewrite combine_nth by lia. rewrite Husi by exact Hi. unfold sG. reflexivity. }
    rewrite (gsum_ext N (fun i => nth i (zipw fmul lv us) 0%F ** nth i (firstn N Gr) 0) (fun i => (nth i lv 0 * gf n1 u i)%F ** sG i)) in Hipp.
    2:{ intros i Hi. rewrite nth_zipw_mul, Husi by exact Hi. reflexivity. }
    rewrite (gsum_ext N (fun i => nth i (zipw fmul rv (zipw fmul (exp_iter (finv y) N) us)) 0%F ** nth i (firstn N Hr) 0) (fun i => (nth i rv 0 * (fpow (finv y) i * gf n1 u i))%F ** sH i)) in Hipp.
    2:{ intros i Hi. rewrite !nth_zipw_mul, Husi, nth_exp_iter by exact Hi. reflexivity. }
    rewrite (gsum_ext N (fun i => nth i svec' 0%F ** nth i (scaled us (firstn N Gr)) 0) (fun i => (nth i svec' 0 * gf n1 u i)%F ** sG i)) in Hipp.
    2:{ intros i Hi. rewrite nth_scaled, Husi by (rewrite ?LG; lia). unfold sG. vring. }
    rewrite (gsum_ext N (fun i => nth i (rev svec') 0%F ** nth i (scaled (zipw fmul (exp_iter (finv y) N) us) (firstn N Hr)) 0) (fun i => (nth i (rev svec') 0 * (fpow (finv y) i * gf n1 u i))%F ** sH i)) in Hipp.
    2:{ intros i Hi. rewrite nth_scaled by (rewrite ?zipw_length, ?exp_iter_length, ?LH; lia).
        rewrite nth_zipw_mul, nth_exp_iter, Husi by exact Hi. unfold sH. vring. }
    rewrite <- Htx in Hipp.
    assert (HLR : LR = ((a * b)%F ** (w ** pcB pc) + a ** gsum N (fun i => (nth i svec' 0 * gf n1 u i)%F ** sG i)
       + b ** gsum N (fun i => (nth i (rev svec') 0 * (fpow (finv y) i * gf n1 u i))%F ** sH i))
       - (gsum N (fun i => (nth i lv 0 * gf n1 u i)%F ** sG i) + gsum N (fun i => (nth i rv 0 * (fpow (finv y) i * gf n1 u i))%F ** sH i) + tx ** (w ** pcB pc))).
    { rewrite Hipp. vring. }
    clear Hipp.
    (* the six commitments collected *)
    assert (Hcom : fpow x mid ** AI1 + (fpow x op ** AO1 + (fpow x (op + 1) ** S1' + ((fpow x mid * u)%F ** AI2 + ((fpow x op * u)%F ** AO2 + ((fpow x (op + 1) * u)%F ** S2' + 0)))))
      = fpow x mid ** (AI1 + u ** AI2) + fpow x op ** (AO1 + u ** AO2) + fpow x (op + 1) ** (S1' + u ** S2')) by vring.
    rewrite Hcom, HAI, HAO, HS, HVC, HVs, HTs, HLR, Heb, Htxb. clear Hcom HAI HAO HS HVC HVs HTs HLR Heb Htxb.
    (* G part and H part vanish *)
    assert (HGz : gsum N (fun i => (if (i <? n)%nat then gf n1 u i * slL i else 0)%F ** sG i)
      + fpow x mid ** gsum N (fun i => (if (i <? n)%nat then gf n1 u i * aL i else 0)%F ** sG i)
      + fpow x op ** gsum N (fun i => (if (i <? n)%nat then gf n1 u i * aO i else 0)%F ** sG i)
      + fpow x (op + 1) ** gsum N (fun i => (if (i <? n)%nat then gf n1 u i * sL i else 0)%F ** sG i)
      + a ** gsum N (fun i => (nth i svec' 0 * gf n1 u i)%F ** sG i)
      - gsum N (fun i => (nth i lv 0 * gf n1 u i)%F ** sG i)
      + gsum N (fun i => (gf n1 u i * (fpow x mid * nth i yw 0 - a * nth i svec' 0))%F ** sG i) = 0).
    { rewrite <- !gsum_smul, <- !gsum_add, <- gsum_sub, <- gsum_add. apply gsum_zero. intros i Hi.
      destruct (Nat.ltb_spec i n).
      - rewrite Hl by assumption. vring.
      - destruct (Hl0 i ltac:(lia)) as [-> ->]. vring. }
    assert (HHz : fpow x mid ** gsum N (fun i => (if (i <? n)%nat then gf n1 u i * aR i else 0)%F ** sH i)
      + fpow x (op + 1) ** gsum N (fun i => (if (i <? n)%nat then gf n1 u i * sR i else 0)%F ** sH i)
      + b ** gsum N (fun i => (nth i (rev svec') 0 * (fpow (finv y) i * gf n1 u i))%F ** sH i)
      - gsum N (fun i => (nth i rv 0 * (fpow (finv y) i * gf n1 u i))%F ** sH i)
      + gsum N (fun i => (gf n1 u i * (fpow (finv y) i * (fpow x mid * wLi i + wOi i + slR i - b * nth i (rev svec') 0) - 1))%F ** sH i) = 0).
    { rewrite <- !gsum_smul, <- !gsum_add, <- gsum_sub, <- gsum_add. apply gsum_zero. intros i Hi.
      assert (Hyy : (fpow (finv y) i * fpow y i = 1)%F) by (rewrite <- fpow_mul_l, finv_l by exact Hy; apply fpow_1_l).
      set (q := fpow (finv y) i) in *. set (Y := fpow y i) in *.
      destruct (Nat.ltb_spec i n).
      - rewrite Hr' by assumption. fold Y.
        match goal with |- ?e = 0 => transitivity (((1 - q * Y) * (gf n1 u i * (fpow x mid * aR i + fpow x (op + 1) * sR i) - gf n1 u i))%F ** sH i) end.
        + vring.
        + rewrite Hyy. vring.
      - destruct (Hr0 i ltac:(lia)) as (-> & -> & -> & ->). fold Y.
        match goal with |- ?e = 0 => transitivity (((q * Y - 1) * gf n1 u i)%F ** sH i) end; [vring|]. rewrite Hyy. vring. }
    match goal with |- ?L = ?R => assert (Hd : L - R = 0) end.
    { match type of HGz with ?e1 = 0 => match type of HHz with ?e2 = 0 => transitivity (e1 + e2) end end.
      - vring.
      - rewrite HGz, HHz. vring. }
    apply (proj1 (vsub_eq_0 _ _)) in Hd. exact Hd.
  Qed.
End Mega.
