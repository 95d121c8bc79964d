(** * Vectors over a field, finite sums and root counting

    Lists of field elements are the model of [Vec<C::ScalarField>]; [ip] is the
    truncating zip-multiply-sum that Rust iterator chains compute, and
    [inner_product] in [Util.v] adds the length check of the Rust function. *)

From Verif Require Export Field.
Local Open Scope F_scope.

(** [zip] and [map] (Rust iterators) *)
Fixpoint zipw {A B C} (f : A -> B -> C) (xs : list A) (ys : list B) : list C :=
  match xs, ys with
  | x :: xs', y :: ys' => f x y :: zipw f xs' ys'
  | _, _ => []
  end.

(** update of one entry (no code modelled) *)
Fixpoint upd {A} (l : list A) (i : nat) (f : A -> A) : list A :=
  match l, i with
  | [], _ => []
  | x :: l', O => f x :: l'
  | x :: l', S i' => x :: upd l' i' f
  end.

Section ListLemmas.
  Context {A B C : Type}.

  Lemma zipw_length (f : A -> B -> C) xs ys :
    length (zipw f xs ys) = Nat.min (length xs) (length ys).
  Proof. revert ys; induction xs as [|x xs IH]; intros [|y ys]; cbn; auto. Qed.

  Lemma nth_zipw (f : A -> B -> C) xs ys i da db dc :
    i < length xs -> i < length ys ->
    nth i (zipw f xs ys) dc = f (nth i xs da) (nth i ys db).
  Proof.
    revert ys i; induction xs as [|x xs IH]; intros [|y ys] [|i]; cbn; intros; try lia; auto.
    apply IH; lia.
  Qed.

  Lemma zipw_app (f : A -> B -> C) xs1 xs2 ys1 ys2 :
    length xs1 = length ys1 ->
    zipw f (xs1 ++ xs2) (ys1 ++ ys2) = zipw f xs1 ys1 ++ zipw f xs2 ys2.
  Proof.
    revert ys1; induction xs1 as [|x xs IH]; intros [|y ys]; cbn; intros; try lia; auto.
    f_equal. apply IH. lia.
  Qed.

  Lemma upd_length (l : list A) i f : length (upd l i f) = length l.
  Proof. revert i; induction l as [|x l IH]; intros [|i]; cbn; auto. Qed.

  Lemma nth_upd_eq (l : list A) i f d : i < length l -> nth i (upd l i f) d = f (nth i l d).
  Proof. revert i; induction l as [|x l IH]; intros [|i]; cbn; intros; try lia; auto. apply IH; lia. Qed.

  Lemma nth_upd_neq (l : list A) i j f d : i <> j -> nth j (upd l i f) d = nth j l d.
  Proof.
    revert i j; induction l as [|x l IH]; intros [|i] [|j]; cbn; intros; try lia; auto.
  Qed.

  Lemma nth_error_upd_eq (l : list A) i f : nth_error (upd l i f) i = option_map f (nth_error l i).
  Proof. revert i; induction l as [|x l IH]; intros [|i]; cbn; auto. Qed.
  Lemma nth_error_upd_neq (l : list A) i j f : i <> j -> nth_error (upd l i f) j = nth_error l j.
  Proof.
    revert i j; induction l as [|x l IH]; intros [|i] [|j]; cbn; intros; try lia; auto.
  Qed.

  Lemma list_ext_nth (xs ys : list A) d :
    length xs = length ys -> (forall i, i < length xs -> nth i xs d = nth i ys d) -> xs = ys.
  Proof. intros. apply (nth_ext _ _ d d); assumption. Qed.

  Lemma nth_map_in (f : A -> B) l i da db : i < length l -> nth i (map f l) db = f (nth i l da).
  Proof. intros H. rewrite nth_indep with (d' := f da); [apply map_nth|rewrite map_length; assumption]. Qed.

End ListLemmas.

Section ListLemmas2.
  Context {A : Type}.

  Lemma nth_map_seq (f : nat -> A) n i d : i < n -> nth i (map f (seq 0 n)) d = f i.
  Proof.
    intros H. rewrite nth_map_in with (da := 0%nat) by (rewrite seq_length; assumption).
    rewrite seq_nth by assumption. reflexivity.
  Qed.
  Lemma nth_repeat_any (a : A) n i d : nth i (repeat a n) d = if i <? n then a else d.
  Proof.
    revert i; induction n as [|n IH]; intros [|i]; cbn; auto. rewrite IH. reflexivity.
  Qed.
  Lemma nth_firstn (l : list A) n i d : nth i (firstn n l) d = if i <? n then nth i l d else d.
  Proof.
    revert n i; induction l as [|x l IH]; intros [|n] [|i]; cbn [firstn nth]; auto.
    - destruct (S i <? S n); reflexivity.
    - rewrite IH. reflexivity.
  Qed.
  Lemma nth_skipn (l : list A) n i d : nth i (skipn n l) d = nth (n + i) l d.
  Proof.
    revert l; induction n as [|n IH]; intros [|x l]; cbn; auto. destruct i; reflexivity.
  Qed.
End ListLemmas2.

Section Vec.
  Context {F : Field}.
  Add Field FFv : (f_th F).
  Implicit Types (xs ys zs : list F) (x y z c : F).

  (** [sum] (Rust iterators) *)
  Fixpoint vsum xs : F := match xs with [] => 0 | x :: r => x + vsum r end.
  (** [zip], multiply and [sum] (Rust iterators) *)
  Fixpoint ip xs ys : F :=
    match xs, ys with x :: xs', y :: ys' => x * y + ip xs' ys' | _, _ => 0 end.
  (** finite sums (no code modelled) *)
  Fixpoint fsum (n : nat) (f : nat -> F) : F :=
    match n with O => 0 | S k => fsum k f + f k end.
  (** [vec![zero; n]] (Rust language) *)
  Definition zeros (n : nat) : list F := repeat 0 n.
  (** all entries times a scalar (no code modelled) *)
  Definition vscale c xs : list F := map (fmul c) xs.
  (** geometric sequences (no code modelled) *)
  Fixpoint powers_from (a x : F) (n : nat) : list F :=
    match n with O => [] | S k => a :: powers_from (a * x) x k end.
  (** polynomial evaluation of a coefficient list, low degree first *)
  Fixpoint peval (cs : list F) x : F :=
    match cs with [] => 0 | c :: r => c + x * peval r x end.

  (** ** finite sums *)
  Lemma fsum_ext n f g : (forall i, i < n -> f i = g i) -> fsum n f = fsum n g.
  Proof. induction n as [|n IH]; intros H; cbn; [reflexivity|]. rewrite IH, H; auto. Qed.
  Lemma fsum_add n f g : fsum n (fun i => f i + g i) = fsum n f + fsum n g.
  Proof. induction n as [|n IH]; cbn; [ring|]. rewrite IH. ring. Qed.
  Lemma fsum_sub n f g : fsum n (fun i => f i - g i) = fsum n f - fsum n g.
  Proof. induction n as [|n IH]; cbn; [ring|]. rewrite IH. ring. Qed.
  Lemma fsum_opp n f : fsum n (fun i => - f i) = - fsum n f.
  Proof. induction n as [|n IH]; cbn; [ring|]. rewrite IH. ring. Qed.
  Lemma fsum_scale n c f : fsum n (fun i => c * f i) = c * fsum n f.
  Proof. induction n as [|n IH]; cbn; [ring|]. rewrite IH. ring. Qed.
  Lemma fsum_scale_r n c f : fsum n (fun i => f i * c) = fsum n f * c.
  Proof. induction n as [|n IH]; cbn; [ring|]. rewrite IH. ring. Qed.
  Lemma fsum_zero n f : (forall i, i < n -> f i = 0) -> fsum n f = 0.
  Proof. induction n as [|n IH]; intros H; cbn; [reflexivity|]. rewrite IH, H; auto; ring. Qed.
  Lemma fsum_single n f k : k < n -> (forall i, i < n -> i <> k -> f i = 0) -> fsum n f = f k.
  Proof.
    intros Hk H. induction n as [|n IH]; [lia|]. cbn.
    destruct (Nat.eq_dec k n) as [->|].
    - rewrite fsum_zero; [ring|]. intros; apply H; lia.
    - rewrite IH, (H n); [ring|lia|lia|lia|]. intros; apply H; lia.
  Qed.
  Lemma fsum_split n m f : fsum (n + m) f = fsum n f + fsum m (fun i => f (n + i)%nat).
  Proof.
    induction m as [|m IH]; [rewrite Nat.add_0_r; cbn; ring|].
    rewrite Nat.add_succ_r. cbn. rewrite IH. ring.
  Qed.
  Lemma fsum_S_l n f : fsum (S n) f = f O + fsum n (fun i => f (S i)).
  Proof. rewrite (fsum_split 1 n). cbn. ring. Qed.
  Lemma fsum_swap n m (f : nat -> nat -> F) :
    fsum n (fun i => fsum m (f i)) = fsum m (fun j => fsum n (fun i => f i j)).
  Proof.
    induction n as [|n IH]; cbn; [symmetry; apply fsum_zero; auto|].
    rewrite IH, fsum_add. reflexivity.
  Qed.
  Lemma fsum_extend n m f : n <= m -> (forall i, n <= i < m -> f i = 0) -> fsum m f = fsum n f.
  Proof.
    intros Hle H. replace m with (n + (m - n))%nat by lia. rewrite fsum_split.
    rewrite (fsum_zero (m - n)); [ring|]. intros; apply H; lia.
  Qed.
  Lemma fsum_rev n f : fsum n f = fsum n (fun i => f (n - 1 - i)%nat).
  Proof.
    revert f. induction n as [|n IH]; intros f; [reflexivity|].
    rewrite (fsum_S_l n (fun i => f (S n - 1 - i)%nat)). cbn [fsum].
    rewrite IH. replace (S n - 1 - 0)%nat with n by lia.
    rewrite fadd_comm. f_equal. apply fsum_ext. intros; f_equal; lia.
  Qed.

  (** ** lists as sums *)
  Lemma vsum_fsum xs n : length xs <= n -> vsum xs = fsum n (fun i => nth i xs 0).
  Proof.
    revert n; induction xs as [|x xs IH]; intros n H.
    - symmetry. apply fsum_zero. intros [|i]; reflexivity.
    - destruct n as [|n]; [cbn in H; lia|]. rewrite fsum_S_l. cbn. rewrite (IH n); [reflexivity|cbn in H; lia].
  Qed.
  Lemma ip_fsum xs ys n : Nat.min (length xs) (length ys) <= n ->
    ip xs ys = fsum n (fun i => nth i xs 0 * nth i ys 0).
  Proof.
    revert ys n; induction xs as [|x xs IH]; intros [|y ys] n H.
    1,2,3: symmetry; apply fsum_zero; intros [|i]; cbn; intros; ring.
    destruct n as [|n]; [cbn in H; lia|]. rewrite fsum_S_l. cbn [ip nth].
    rewrite (IH ys n); [reflexivity|cbn in H; lia].
  Qed.
  Lemma vsum_app xs ys : vsum (xs ++ ys) = vsum xs + vsum ys.
  Proof. induction xs as [|x xs IH]; cbn; [ring|]. rewrite IH. ring. Qed.
  Lemma vsum_map_seq n (f : nat -> F) : vsum (map f (seq 0 n)) = fsum n f.
  Proof.
    induction n as [|n IH]; [reflexivity|].
    rewrite seq_S, map_app, vsum_app, IH. cbn. ring.
  Qed.
  Lemma ip_comm xs ys : ip xs ys = ip ys xs.
  Proof. revert ys; induction xs as [|x xs IH]; intros [|y ys]; cbn; auto. rewrite IH. ring. Qed.
  Lemma ip_app xs1 xs2 ys1 ys2 : length xs1 = length ys1 ->
    ip (xs1 ++ xs2) (ys1 ++ ys2) = ip xs1 ys1 + ip xs2 ys2.
  Proof.
    revert ys1; induction xs1 as [|x xs IH]; intros [|y ys]; cbn; intros; try lia; try ring.
    rewrite IH by lia. ring.
  Qed.
  Lemma ip_zeros_l n ys : ip (zeros n) ys = 0.
  Proof. revert ys; induction n as [|n IH]; intros [|y ys]; cbn; auto. unfold zeros in IH. rewrite IH. ring. Qed.
  Lemma ip_zeros_r n ys : ip ys (zeros n) = 0.
  Proof. rewrite ip_comm. apply ip_zeros_l. Qed.
  Lemma ip_nil_r xs : ip xs [] = 0. Proof. destruct xs; reflexivity. Qed.
  Lemma ip_scale_l c xs ys : ip (vscale c xs) ys = c * ip xs ys.
  Proof. revert ys; induction xs as [|x xs IH]; intros [|y ys]; cbn; try ring. unfold vscale in IH. rewrite IH. ring. Qed.
  Lemma ip_scale_r c xs ys : ip xs (vscale c ys) = c * ip xs ys.
  Proof. rewrite ip_comm, ip_scale_l, ip_comm. reflexivity. Qed.
  Lemma ip_add_l xs ys zs : length xs = length ys ->
    ip (zipw fadd xs ys) zs = ip xs zs + ip ys zs.
  Proof.
    revert ys zs; induction xs as [|x xs IH]; intros [|y ys] [|z zs]; cbn; intros; try lia; try ring.
    rewrite IH by lia. ring.
  Qed.
  Lemma ip_add_r xs ys zs : length ys = length zs ->
    ip xs (zipw fadd ys zs) = ip xs ys + ip xs zs.
  Proof. intros. rewrite ip_comm, ip_add_l by assumption. rewrite (ip_comm ys), (ip_comm zs). reflexivity. Qed.

  Lemma zeros_length n : length (zeros n) = n. Proof. apply repeat_length. Qed.
  Lemma nth_zeros n i : nth i (zeros n) 0 = 0.
  Proof. unfold zeros. rewrite nth_repeat_any. destruct (i <? n); reflexivity. Qed.
  Lemma vscale_length c xs : length (vscale c xs) = length xs. Proof. apply map_length. Qed.
  Lemma nth_vscale c xs i : nth i (vscale c xs) 0 = c * nth i xs 0.
  Proof.
    unfold vscale. replace 0 with (c * 0) at 1 by ring. rewrite map_nth. reflexivity.
  Qed.
  Lemma nth_app0 xs ys i : nth i (xs ++ ys) (0 : F) =
    if i <? length xs then nth i xs 0 else nth (i - length xs) ys 0.
  Proof.
    destruct (Nat.ltb_spec i (length xs)); [apply app_nth1|apply app_nth2]; lia.
  Qed.
  Lemma nth_zipw_mul xs ys i : nth i (zipw fmul xs ys) 0 = nth i xs 0 * nth i ys 0.
  Proof.
    revert ys i; induction xs as [|x xs IH]; intros [|y ys] [|i]; cbn; try ring; auto.
  Qed.
  Lemma nth_zipw_add xs ys i : length xs = length ys ->
    nth i (zipw fadd xs ys) 0 = nth i xs 0 + nth i ys 0.
  Proof.
    revert ys i; induction xs as [|x xs IH]; intros [|y ys] [|i]; cbn; intros; try lia; try ring; auto.
  Qed.

  Lemma powers_from_length a x n : length (powers_from a x n) = n.
  Proof. revert a; induction n as [|n IH]; intros a; cbn; auto. Qed.
  Lemma nth_powers_from a x n i : i < n -> nth i (powers_from a x n) 0 = a * fpow x i.
  Proof.
    revert a i; induction n as [|n IH]; intros a [|i]; cbn; intros; try lia; [ring|].
    rewrite IH by lia. ring.
  Qed.

  Lemma peval_fsum cs x n : length cs <= n -> peval cs x = fsum n (fun i => nth i cs 0 * fpow x i).
  Proof.
    revert n; induction cs as [|c cs IH]; intros n H.
    - symmetry. apply fsum_zero. intros [|i]; cbn; intros; ring.
    - destruct n as [|n]; [cbn in H; lia|]. rewrite fsum_S_l. cbn [peval nth fpow].
      rewrite (IH n) by (cbn in H; lia). rewrite <- fsum_scale.
      f_equal; [ring|]. apply fsum_ext. intros; ring.
  Qed.
  Lemma peval_app cs ds x : peval (cs ++ ds) x = peval cs x + fpow x (length cs) * peval ds x.
  Proof. induction cs as [|c cs IH]; cbn; [ring|]. rewrite IH. ring. Qed.

  (** ** root counting *)
  (** synthetic division by (X - r): quotient, with remainder [peval cs r] *)
  Fixpoint pdiv (cs : list F) (r : F) : list F :=
    match cs with
    | [] => []
    | _ :: cs' => match cs' with [] => [] | _ => peval cs' r :: pdiv cs' r end
    end.
  Lemma pdiv_spec cs r x : peval cs x = (x - r) * peval (pdiv cs r) x + peval cs r.
  Proof.
    induction cs as [|c cs IH]; [cbn; ring|].
    cbn [peval pdiv]. destruct cs as [|c' cs'] eqn:E; [cbn; ring|].
    rewrite IH. set (q := peval (pdiv (c' :: cs') r) x) in *. set (e := peval (c' :: cs') r) in *.
    cbn [peval]. fold q. ring.
  Qed.
  Lemma pdiv_length cs r : length (pdiv cs r) = pred (length cs).
  Proof.
    induction cs as [|c cs IH]; [reflexivity|]. cbn [pdiv]. destruct cs; [reflexivity|].
    cbn [length] in *. rewrite IH. reflexivity.
  Qed.
  Lemma pdiv_zero cs r : peval cs r = 0 -> Forall (fun c => c = 0) (pdiv cs r) -> Forall (fun c => c = 0) cs.
  Proof.
    induction cs as [|c cs IH]; intros H0 H; [constructor|].
    cbn [pdiv] in H. destruct cs as [|c' cs'] eqn:E.
    - cbn in H0. constructor; [|constructor]. rewrite <- H0. ring.
    - inversion H as [|? ? Hh Ht]; subst. cbn [peval] in H0, Hh.
      assert (Hall := IH Hh Ht). constructor; [|assumption].
      rewrite Hh in H0. rewrite <- H0. ring.
  Qed.
  (** A coefficient list that vanishes on as many distinct points as it has
      coefficients is the zero list. *)
  Lemma roots_zero cs (rs : list F) :
    NoDup rs -> length cs <= length rs -> Forall (fun r => peval cs r = 0) rs ->
    Forall (fun c => c = 0) cs.
  Proof.
    revert cs; induction rs as [|r rs IH]; intros cs Hnd Hlen Hr.
    - destruct cs; [constructor|cbn in Hlen; lia].
    - inversion Hnd as [|? ? Hni Hnd']; inversion Hr as [|? ? Hr0 Hr']; subst.
      apply (pdiv_zero cs r Hr0). apply IH; [assumption|rewrite pdiv_length; cbn in Hlen; lia|].
      rewrite Forall_forall in Hr' |- *. intros s Hs. specialize (Hr' s Hs).
      rewrite (pdiv_spec cs r s), Hr0 in Hr'.
      assert (Hsr : s - r <> 0) by (apply fsub_neq_0; intros ->; contradiction).
      destruct (fmul_eq_0 (s - r) (peval (pdiv cs r) s)) as [|]; [|contradiction|assumption].
      rewrite <- Hr'. ring.
  Qed.
  Lemma roots_bound cs (rs : list F) :
    Exists (fun c => c <> 0) cs -> NoDup rs -> Forall (fun r => peval cs r = 0) rs ->
    length rs < length cs.
  Proof.
    intros Hex Hnd Hr. destruct (Nat.lt_ge_cases (length rs) (length cs)) as [|Hge]; [assumption|].
    exfalso. pose proof (roots_zero cs rs Hnd Hge Hr) as Hz.
    rewrite Exists_exists in Hex. destruct Hex as (c & Hin & Hc).
    rewrite Forall_forall in Hz. exact (Hc (Hz c Hin)).
  Qed.
End Vec.
