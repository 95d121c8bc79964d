(** * A cheating prover *)
From Verif Require Export SoundSpec.
Local Open Scope F_scope.

Section Forge.
  Context {F : Field} {V : VSpace F}.
  Variable E : TrEnv V.

  (** The prover of prover.rs 502-1195 for circuits without randomised phase, with
      two changes.  The commitment to the outputs of the gates carries additional
      coefficients [oR] on the generators [H], which the honest prover leaves out
      (prover.rs 606-621), and the polynomial [r] gets the matching term
      [y^i oR_i x^op].  The wires in [s] need not satisfy the gates.
      No code of the repository is modelled: this is an attacker. *)
  Definition forge (rnd : PRand F) (pc : PedersenGens V) (g : BPGens V) (s : PState F) (oR : list F)
    : option (R1CSProof V) :=
    let s := p_pad (p_size s) s in
    let ncomm := length (p_vec s) in
    let op := op_degree_of ncomm in
    let ops := op_splits op in
    let n := p_size s in
    let N := next_power_of_two n in
    do G <- share_G g 0 N;
    do H <- share_H g 0 N;
    let sL := map (r_sL1 rnd) (seq 0 n) in
    let sR := map (r_sR1 rnd) (seq 0 n) in
    let a_i := commit_I pc (r_i1 rnd) (p_aL s) (p_aR s) (firstn n G) (firstn n H) in
    let a_o := commit_I pc (r_o1 rnd) (p_aO s) oR (firstn n G) (firstn n H) in
    let s1 := commit_I pc (r_s1 rnd) sL sR (firstn n G) (firstn n H) in
    let tr := append_u64 (p_tr s) "m" (N.of_nat (length (p_v s))) in
    let tr := append_point E (append_point E (append_point E tr "A_I1" a_i) "A_O1" a_o) "S1" s1 in
    let tr := r1cs_1phase_domain_sep tr in
    let tr := append_point E (append_point E (append_point E tr "A_I2" v0) "A_O2" v0) "S2" v0 in
    do (y, tr) <- challenge_scalar E tr "y";
    do (z, tr) <- challenge_scalar E tr "z";
    do fl <- p_flatten s z;
    do y_inv <- finv_opt y;
    do (l, r, _) <- build_polys op ops n y y_inv (p_aL s) (p_aR s) (p_aO s) sL sR fl (map snd (p_vec s));
    let r := upd r op (fun row => zipw fadd row (zipw fmul (exp_iter y n) oR)) in
    do t <- vp_inner_product l r;
    let tb := map (fun d => if Nat.eqb d op then 0 else r_t rnd d) (seq 0 (2 * (op + 1) + 1)) in
    let T := map (fun d => if Nat.eqb d op then v0 else pc_commit pc (nth d t 0) (nth d tb 0)) (seq 0 (2 * (op + 1) + 1)) in
    do tr <- append_Ts E op (seq 0 (2 * (op + 1) + 1)) T tr;
    do (u, tr) <- challenge_scalar E tr "u";
    do (x, tr) <- challenge_scalar E tr "x";
    let t_x := poly_eval t x in
    let t_x_blinding := poly_eval (upd tb op (fun _ => ip (wV fl) (p_vb s))) x in
    do lx <- vp_eval l x;
    do rx <- vp_eval r x;
    let e_b := eval_terms (e_terms op ops (r_i1 rnd) (r_o1 rnd) (r_s1 rnd) (p_vec s)) 1 x in
    let tr := append_scalar E (append_scalar E (append_scalar E tr "t_x" t_x) "t_x_blinding" t_x_blinding) "e_blinding" e_b in
    do (w, tr) <- challenge_scalar E tr "w";
    let Gf := repeat 1 n ++ repeat u (N - n) in
    do (ipp, tr) <- ipp_create E tr (vsmul w (pcB pc)) Gf (zipw fmul (exp_iter y_inv N) Gf) G H
                      (lx ++ repeat 0 (N - n)) (rx ++ map (fun i => - nth i (exp_iter y N) 0) (seq n (N - n)));
    Some (mkProof a_i a_o s1 v0 v0 v0 T t_x t_x_blinding e_b ipp).
End Forge.
