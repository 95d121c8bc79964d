(** * Properties of generators, polynomial and power helpers, challenges
      (C23-C26, C59) *)
From Verif Require Import Generators GenProofs UtilProofs Toy.
Local Open Scope nat_scope.

(** ** C23: generator tables are stable under growth *)

(** Any history of [increase_capacity] calls leads to the table that [new] makes
    for the largest requested capacity. *)
Theorem C23_growth : forall (F : Field) (V : VSpace F) (chain : bytes -> nat -> V) caps n k,
  fold_left (increase_capacity chain) caps (bp_new chain n k) = bp_new chain (fold_left Nat.max caps n) k /\
  gens_capacity (bp_new chain n k) = n /\ party_capacity (bp_new chain n k) = k.
Proof. intros. split; [apply increase_many|]. rewrite bp_new_table. split; reflexivity. Qed.

(** A share view of size m of party j is the first min(m, capacity) points of
    that party's chain, whatever the capacity. *)
Theorem C23_share : forall (F : Field) (V : VSpace F) (chain : bytes -> nat -> V) n k j m, j < k ->
  share_G (bp_new chain n k) j m = Some (map (chain (gens_label 71 j)) (seq 0 (Nat.min m n))) /\
  share_H (bp_new chain n k) j m = Some (map (chain (gens_label 72 j)) (seq 0 (Nat.min m n))).
Proof. intros. split; [apply share_G_new|apply share_H_new]; assumption. Qed.
Print Assumptions C23_growth.
Print Assumptions C23_share.
Example C23_demo : map i101 (nth 1 (G_vec (increase_capacity (toy_chain PM101) (toy_gens PM101 2 3) 4)) [])
                 = map i101 (nth 1 (G_vec (toy_gens PM101 4 3)) []) /\
                   map i101 (nth 1 (G_vec (toy_gens PM101 4 3)) []) = [99; 98; 22; 64]%Z.
Proof. vm_compute. split; reflexivity. Qed.

(** ** C24: the aggregated iterator *)

(** Missing: n = 0, see [C24_aggregated_refuted]. *)
Theorem C24_aggregated_partial : forall (F : Field) (V : VSpace F) (chain : bytes -> nat -> V) cap k n m,
  0 < n <= cap -> m <= k ->
  agg_G (bp_new chain cap k) n m = Some (concat (map (fun j => map (chain (gens_label 71 j)) (seq 0 n)) (seq 0 m))) /\
  agg_H (bp_new chain cap k) n m = Some (concat (map (fun j => map (chain (gens_label 72 j)) (seq 0 n)) (seq 0 m))).
Proof. intros. apply agg_new; assumption. Qed.
(** With n = 0 and at least two parties the iterator yields one generator of
    every party but the first instead of nothing. *)
Theorem C24_aggregated_refuted : forall (F : Field) (V : VSpace F) (chain : bytes -> nat -> V) cap k m,
  0 < cap -> 0 < m <= k ->
  agg_G (bp_new chain cap k) 0 m = Some (map (fun j => chain (gens_label 71 j) 0) (seq 1 (m - 1))).
Proof.
  intros F V chain cap k m Hc Hm. rewrite bp_new_table. unfold agg_G. cbn [G_vec].
  assert (Hrow : forall j, j < m -> nth j (table chain 71 cap k) [] = map (chain (gens_label 71 j)) (seq 0 cap))
    by (intros j Hj; apply nth_error_nth, nth_table; lia).
  rewrite agg_collect_0.
  - f_equal. apply map_ext_in. intros j Hj. apply in_seq in Hj. rewrite Hrow by lia.
    rewrite (nth_map_seq (chain (gens_label 71 j))) by lia. reflexivity.
  - unfold table. rewrite map_length, seq_length. lia.
  - intros j Hj. rewrite Hrow, map_length, seq_length by lia. lia.
  - lia.
  - lia.
Qed.
Print Assumptions C24_aggregated_partial.
Print Assumptions C24_aggregated_refuted.
Example C24_demo : option_map (map i101) (agg_G (toy_gens PM101 4 3) 2 2) = Some [10; 7; 99; 98]%Z /\
  option_map (map i101) (agg_G (toy_gens PM101 4 3) 0 2) = Some [99]%Z.
Proof. vm_compute. split; reflexivity. Qed.

(** ** C25: polynomial helpers *)
Local Open Scope F_scope.

Theorem C25_vecpoly : forall (F : Field) n (l r : VecPoly F) x,
  l <> [] -> r <> [] -> rect n l -> rect n r ->
  exists t lx rx, vp_inner_product l r = Some t /\ vp_eval l x = Some lx /\ vp_eval r x = Some rx /\
    poly_eval t x = ip lx rx /\
    length t = (vp_deg l + vp_deg r + 1)%nat /\
    (forall i, (i < n)%nat -> nth i lx 0 = fsum (length l) (fun d => nth i (nth d l []) 0 * fpow x d)).
Proof.
  intros F n l r x Hl Hr Rl Rr.
  pose proof (vp_inner_product_Some n l r Hl Hr Rl Rr) as Ht.
  pose proof (vp_eval_Some n l x Hl Rl) as Hlx. pose proof (vp_eval_Some n r x Hr Rr) as Hrx.
  do 3 eexists. split; [exact Ht|]. split; [exact Hlx|]. split; [exact Hrx|].
  split; [eapply vp_inner_product_eval; [exact Hl|exact Hr|exact Rl|exact Rr|eassumption..]|].
  split; [rewrite map_length, seq_length; reflexivity|].
  intros i Hi. eapply (vp_eval_nth n l x); eassumption.
Qed.
Theorem C25_poly_eval : forall (F : Field) (p : Poly F) x,
  poly_eval p x = fsum (length p) (fun d => nth d p 0 * fpow x d).
Proof. intros. rewrite poly_eval_peval. apply peval_fsum. lia. Qed.
Theorem C25_vecpoly1 : forall (F : Field) (l r : VecPoly1 F) t x lx rx,
  length (vp1_0 l) = length (vp1_1 l) -> length (vp1_0 r) = length (vp1_1 r) ->
  vp1_inner_product l r = Some t -> vp1_eval l x = Some lx -> vp1_eval r x = Some rx ->
  p2_eval t x = ip lx rx.
Proof. exact @vp1_spec. Qed.
Theorem C25_vecpoly3 : forall (F : Field) (l r : VecPoly3 F) t x lx rx n,
  length (vp3_1 l) = n -> length (vp3_2 l) = n -> length (vp3_3 l) = n ->
  length (vp3_0 r) = n -> length (vp3_1 r) = n -> length (vp3_3 r) = n ->
  vp3_0 l = zeros n -> vp3_2 r = zeros n ->
  vp3_special_inner_product l r = Some t -> vp3_eval l x = Some lx -> vp3_eval r x = Some rx ->
  p6_eval t x = ip lx rx.
Proof. exact @vp3_spec. Qed.
Print Assumptions C25_vecpoly.
Print Assumptions C25_poly_eval.
Print Assumptions C25_vecpoly1.
Print Assumptions C25_vecpoly3.
(* test data or vocabulary of statements, no code modelled *)
Definition demo_vp : VecPoly F101 := [[z101 1; z101 2]; [z101 3; z101 4]; [z101 5; z101 6]].
Example C25_demo : rect 2 demo_vp /\ demo_vp <> [] /\
  option_map (map i101) (vp_inner_product demo_vp demo_vp) = Some [5; 22; 59; 78; 61]%Z /\
  option_map (map i101) (vp_eval demo_vp (z101 2)) = Some [27; 34]%Z.
Proof. split; [repeat constructor|]. split; [discriminate|]. vm_compute. split; reflexivity. Qed.
Example C25_demo1 : let l := mkVP1 [z101 1; z101 2] [z101 3; z101 4] in
  option_map (fun t => (i101 (p2_0 t), i101 (p2_1 t), i101 (p2_2 t))) (vp1_inner_product l l) = Some (5, 22, 25)%Z.
Proof. vm_compute. reflexivity. Qed.
Example C25_demo3 : let l := mkVP3 (zeros 1) [z101 2] [z101 3] [z101 4] in let r := mkVP3 [z101 5] [z101 6] (zeros 1) [z101 7] in
  option_map (fun t => i101 (p6_eval t (z101 2))) (vp3_special_inner_product l r) = Some 70%Z.
Proof. vm_compute. reflexivity. Qed.

(** ** C26: power helpers *)

Theorem C26_exp_iter : forall (F : Field) (x : F) n,
  length (exp_iter x n) = n /\ forall i, (i < n)%nat -> nth i (exp_iter x n) 0 = fpow x i.
Proof. intros. split; [apply exp_iter_length|]. intros. apply nth_exp_iter. assumption. Qed.
Theorem C26_scalar_exp : forall (F : Field) (x : F) n, (n < 2 ^ 64)%N ->
  scalar_exp_vartime x n = Some (fpow x (N.to_nat n)).
Proof.
  intros F x n Hn. unfold scalar_exp_vartime. rewrite scalar_exp_loop_spec by exact Hn.
  f_equal. apply fmul_1_l.
Qed.
Theorem C26_sum_of_powers : forall (F : Field) (x : F) n, sum_of_powers x n = Some (fsum n (fun i => fpow x i)).
Proof. intros. apply sum_of_powers_spec. Qed.
Print Assumptions C26_exp_iter.
Print Assumptions C26_scalar_exp.
Print Assumptions C26_sum_of_powers.
Example C26_demo : option_map i101 (scalar_exp_vartime (z101 3) 1000003) = Some 27%Z /\
  option_map i101 (sum_of_powers (z101 3) 6) = Some 61%Z /\ option_map i101 (sum_of_powers (z101 3) 8) = Some 48%Z.
Proof. vm_compute. repeat split; reflexivity. Qed.

(** ** C59: challenges and hashed points are the first accepted candidate *)

Theorem C59_challenge : forall (F : Field) (V : VSpace F) (E : TrEnv V) t label,
  let cand k := from_random_bytes E (sha3_256 E (challenge_bytes E t label ++ [N.of_nat k])) in
  (forall x t', challenge_scalar E t label = Some (x, t') <->
     t' = t ++ [Chal label] /\
     exists k, (k < 256)%nat /\ cand k = Some x /\ forall k', (k' < k)%nat -> cand k' = None) /\
  (challenge_scalar E t label = None <-> forall k, (k < 256)%nat -> cand k = None).
Proof.
  intros F V E t label cand.
  assert (Hc : forall k, cand k = from_random_bytes E (sha3_256 E (challenge_bytes E t label ++ [(0 + N.of_nat k)%N]))) by reflexivity.
  pose proof (first_scalar_spec E (challenge_bytes E t label) 256 0) as Hs.
  pose proof (first_scalar_none E (challenge_bytes E t label) 256 0) as Hn.
  unfold challenge_scalar. destruct (first_scalar E (challenge_bytes E t label) 0 256) as [y|].
  - split.
    + intros x t'. split.
      * intros H. injection H as <- <-. split; [reflexivity|]. apply Hs. reflexivity.
      * intros [-> Hk]. apply Hs in Hk. injection Hk as <-. reflexivity.
    + split; [discriminate|]. intros H. exfalso. apply Hn in H. discriminate.
  - split.
    + intros x t'. split; [discriminate|]. intros [_ Hk]. apply Hs in Hk. discriminate.
    + split; [|reflexivity]. intros _. apply Hn. reflexivity.
Qed.
Theorem C59_hash_to_point : forall (F : Field) (V : VSpace F) sha (from_bytes : bytes -> option V) data,
  let cand k := from_bytes (sha (data ++ [N.of_nat k])) in
  (forall P, affine_from_bytes_tai sha from_bytes data = Some P <->
     exists k, (k < 256)%nat /\ cand k = Some P /\ forall k', (k' < k)%nat -> cand k' = None) /\
  (affine_from_bytes_tai sha from_bytes data = None <-> forall k, (k < 256)%nat -> cand k = None).
Proof.
  intros F V sha fb data cand. split.
  - intros P. exact (first_point_spec sha fb data 256 0 P).
  - exact (first_point_none sha fb data 256 0).
Qed.
Print Assumptions C59_challenge.
Print Assumptions C59_hash_to_point.
(** A challenge whose first candidate is rejected. *)
Example C59_demo : is_some (from_random_bytes E101 (sha3_256 E101 (challenge_bytes E101 [] "x" ++ [0%N]))) = false /\
  is_some (challenge_scalar E101 [] "x") = true.
Proof. vm_compute. split; reflexivity. Qed.
