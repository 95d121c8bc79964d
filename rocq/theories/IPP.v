(** * Model of bulletproofs/src/inner_product_proof.rs

    Panics are [None], [Result::Err] is [Err].  Points and scalars are the
    module [V] over the field [F]. *)

From Verif Require Export Util Generators.
Local Open Scope F_scope.

Section IPP.
  Context {F : Field} {V : VSpace F}.
  Variable E : TrEnv V.

  (** inner_product_proof.rs 20-26 [InnerProductProof] *)
  Record IPPProof := mkIPP { ipp_L : list V; ipp_R : list V; ipp_a : F; ipp_b : F }.

  (** inner_product_proof.rs 152-155, 221-224: folding of one generator pair is a
      two-term [msm]; [f] and [g] are the two scalars for index [i]. *)
  Definition fold_points (n : nat) (f g : nat -> F) (PL PR : list V) : list V :=
    map (fun i => msm [f i; g i] [nth i PL v0; nth i PR v0]) (seq 0 n).
  (** inner_product_proof.rs 145-147, 216-218: folding of the scalars *)
  Definition fold_scalars (n : nat) (c d : F) (xL xR : list F) : list F :=
    map (fun i => nth i xL 0 * c + d * nth i xR 0) (seq 0 n).

  (** inner_product_proof.rs 161-228: the [while n != 1] loop.  [fuel] bounds the
      number of iterations ([None] when exhausted or on a panic: a zero challenge
      or no challenge). The proof points are accumulated in order. *)
  Fixpoint ipp_loop (fuel n : nat) (tr : Transcript) (Q : V) (G H : list V) (a b : list F) (Ls Rs : list V)
    : option (IPPProof * Transcript) :=
    if Nat.eqb n 1 then
      match a, b with
      | a0 :: _, b0 :: _ => Some (mkIPP Ls Rs a0 b0, tr)
      | _, _ => None
      end
    else match fuel with
    | O => None
    | S k =>
      let n := (n / 2)%nat in
      let a_L := firstn n a in let a_R := skipn n a in
      let b_L := firstn n b in let b_R := skipn n b in
      let G_L := firstn n G in let G_R := skipn n G in
      let H_L := firstn n H in let H_R := skipn n H in
      do c_L <- inner_product a_L b_R;
      do c_R <- inner_product a_R b_L;
      let L := msm (a_L ++ b_R ++ [c_L]) (G_R ++ H_L ++ [Q]) in
      let R := msm (a_R ++ b_L ++ [c_R]) (G_L ++ H_R ++ [Q]) in
      let tr := append_point E tr "L" L in
      let tr := append_point E tr "R" R in
      do (u, tr) <- challenge_scalar E tr "u";
      do u_inv <- finv_opt u;
      ipp_loop k n tr Q
        (fold_points n (fun _ => u_inv) (fun _ => u) G_L G_R)
        (fold_points n (fun _ => u) (fun _ => u_inv) H_L H_R)
        (fold_scalars n u u_inv a_L a_R)
        (fold_scalars n u_inv u b_L b_R)
        (Ls ++ [L]) (Rs ++ [R])
    end.

  (** inner_product_proof.rs 40-236 [InnerProductProof::create].  The first
      iteration (79-159) carries the factors. *)
  Definition ipp_create (tr : Transcript) (Q : V) (Gf Hf : list F) (G H : list V) (a b : list F)
    : option (IPPProof * Transcript) :=
    let n := length G in
    guard (Nat.eqb (length H) n && Nat.eqb (length a) n && Nat.eqb (length b) n &&
           Nat.eqb (length Gf) n && Nat.eqb (length Hf) n && is_power_of_two n)
      (let tr := innerproduct_domain_sep tr (N.of_nat n) in
       if Nat.eqb n 1 then ipp_loop 0 n tr Q G H a b [] []
       else
         let n := (n / 2)%nat in
         let a_L := firstn n a in let a_R := skipn n a in
         let b_L := firstn n b in let b_R := skipn n b in
         let G_L := firstn n G in let G_R := skipn n G in
         let H_L := firstn n H in let H_R := skipn n H in
         do c_L <- inner_product a_L b_R;
         do c_R <- inner_product a_R b_L;
         let L := msm (zipw fmul a_L (skipn n Gf) ++ zipw fmul b_R (firstn n Hf) ++ [c_L]) (G_R ++ H_L ++ [Q]) in
         let R := msm (zipw fmul a_R (firstn n Gf) ++ zipw fmul b_L (skipn n Hf) ++ [c_R]) (G_L ++ H_R ++ [Q]) in
         let tr := append_point E tr "L" L in
         let tr := append_point E tr "R" R in
         do (u, tr) <- challenge_scalar E tr "u";
         do u_inv <- finv_opt u;
         ipp_loop n n tr Q
           (fold_points n (fun i => u_inv * nth i Gf 0) (fun i => u * nth (n + i) Gf 0) G_L G_R)
           (fold_points n (fun i => u * nth i Hf 0) (fun i => u_inv * nth (n + i) Hf 0) H_L H_R)
           (fold_scalars n u u_inv a_L a_R)
           (fold_scalars n u_inv u b_L b_R)
           [L] [R]).

  (** inner_product_proof.rs 268-272: the loop over [L_vec.zip(R_vec)]. *)
  Fixpoint ipp_challenges (tr : Transcript) (Ls Rs : list V) : option (Res (list F * Transcript)) :=
    match Ls, Rs with
    | L :: Ls', R :: Rs' =>
      match validate_and_append_point E tr "L" L with
      | Err e => Some (Err e)
      | Ok tr =>
        match validate_and_append_point E tr "R" R with
        | Err e => Some (Err e)
        | Ok tr =>
          do (u, tr) <- challenge_scalar E tr "u";
          do r <- ipp_challenges tr Ls' Rs';
          match r with Ok (us, tr) => Some (Ok (u :: us, tr)) | Err e => Some (Err e) end
        end
      end
    | _, _ => Some (Ok ([], tr))
    end.

  (** [ark_ff::batch_inversion] leaves zeros in place. *)
  Definition inv_or_zero (x : F) : F := if feqb x 0 then 0 else finv x.

  (** inner_product_proof.rs 293-303: the [s] vector, pushed one entry at a time *)
  Definition s_step (lg_n : nat) (usq : list F) (s : list F) (i : nat) : list F :=
    let lg_i := Nat.log2 i in
    s ++ [nth (i - 2 ^ lg_i) s 0 * nth (lg_n - 1 - lg_i) usq 0].
  (** inner_product_proof.rs 293-303: the loop *)
  Definition s_vector (lg_n n : nat) (allinv : F) (usq : list F) : list F :=
    fold_left (s_step lg_n usq) (seq 1 (n - 1)) [allinv].

  (** inner_product_proof.rs 241-307 [verification_scalars]; [challenges_inv[i]]
      panics when there are fewer [R] than [L]. *)
  Definition ipp_verification_scalars (p : IPPProof) (n : nat) (tr : Transcript)
    : option (Res (list F * list F * list F * Transcript)) :=
    let lg_n := length (ipp_L p) in
    if (32 <=? lg_n)%nat then Some (Err VerificationError)
    else if negb (Nat.eqb n (2 ^ lg_n)) then Some (Err VerificationError)
    else
      let tr := innerproduct_domain_sep tr (N.of_nat n) in
      do r <- ipp_challenges tr (ipp_L p) (ipp_R p);
      match r with
      | Err e => Some (Err e)
      | Ok (us, tr) =>
        guard (lg_n <=? length us)%nat
          (let inv := map inv_or_zero us in
           let allinv := fold_left fmul inv 1 in
           let usq := map (fun u => u * u) us in
           let uinvsq := map (fun u => u * u) inv in
           Some (Ok (usq, uinvsq, s_vector lg_n n allinv usq, tr)))
      end.

  (** inner_product_proof.rs 314-373 [verify] *)
  Definition ipp_verify (p : IPPProof) (n : nat) (tr : Transcript) (Gf Hf : list F) (P Q : V) (G H : list V)
    : option (Res unit) :=
    do r <- ipp_verification_scalars p n tr;
    match r with
    | Err e => Some (Err e)
    | Ok (usq, uinvsq, s, _) =>
      let g_times_a_times_s := firstn (length G) (zipw (fun g si => ipp_a p * si * g) Gf s) in
      let h_times_b_div_s := zipw (fun h si => ipp_b p * si * h) Hf (rev s) in
      let scalars := (ipp_a p * ipp_b p) :: g_times_a_times_s ++ h_times_b_div_s ++ map fopp usq ++ map fopp uinvsq in
      let points := Q :: G ++ H ++ ipp_L p ++ ipp_R p in
      let expect_P := msm scalars points in
      if veqb expect_P P then Some (Ok tt) else Some (Err VerificationError)
    end.
End IPP.
Arguments IPPProof {F} V.
