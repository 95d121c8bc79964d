(** * A cheating prover that uses the generators [H] in a vector commitment *)
From Verif Require Export SoundSpec.
Local Open Scope F_scope.

Section ForgeVec.
  Context {F : Field} {V : VSpace F}.
  Variable E : TrEnv V.

  (** The point with coefficients [h] on the generators [H]; no code modelled. *)
  Definition H_part (g : BPGens V) (h : list F) : V := msm h (nth 0 (H_vec g) []).

  (** [Prover::commit_vec] (prover.rs 335-374) by a cheating prover: the commitment
      carries additional coefficients [h] on the generators [H].
      No code of the repository is modelled: this is an attacker. *)
  Definition commit_vec_H (pc : PedersenGens V) (g : BPGens V) (s : PState F) (v : list F) (vb : F) (h : list F)
    : option (PState F * (V * list Var)) :=
    do G <- share_G g 0 (length v);
    guard (Nat.eqb (length G) (length v))
      (let comm := vadd (msm (vb :: v) (pcB_blinding pc :: G)) (H_part g h) in
       Some (mkP (append_point E (p_tr s) "V" comm) (p_cs s) (p_aL s) (p_aR s) (p_aO s)
                 (p_v s) (p_vb s) (p_vec s ++ [(vb, v)]) (p_def s) (p_pend s),
             (comm, map (VectorCommit (length (p_vec s))) (seq 0 (length v))))).

  (** A session of a cheating prover with an honest verifier: the [k]-th vector
      commitment has coefficients [h] on the generators [H], all other calls are the
      honest ones, and the prover replaces the values of the gates whenever it likes.
      No code modelled: specification vocabulary. *)
  Inductive cheat (pc : PedersenGens V) (g : BPGens V) (tr : Transcript) (k : nat) (h : list F) : PState F -> VState V -> Prop :=
  | ch_commit_H s t v vb s' c us : session E pc g tr s t -> k = length (p_vec s) ->
      commit_vec_H pc g s v vb h = Some (s', (c, us)) -> cheat pc g tr k h s' (fst (v_commit_vec E t (length v) c))
  | ch_gadget A (p p' : Prog F A) s t s' a t' a' : cheat pc g tr k h s t -> same_gadget p p' ->
      prun E p s = Some (s', a) -> vrun E p' t = Some (t', a') -> cheat pc g tr k h s' t'
  | ch_commit s t v vb s' c u : cheat pc g tr k h s t ->
      p_commit E pc s v vb = (s', (c, u)) -> cheat pc g tr k h s' (fst (v_commit E t c))
  | ch_commit_vec s t v vb s' c us : cheat pc g tr k h s t ->
      p_commit_vec E pc g s v vb = Some (s', (c, us)) -> cheat pc g tr k h s' (fst (v_commit_vec E t (length v) c))
  | ch_wires s t aL aR aO : cheat pc g tr k h s t ->
      length aL = length (p_aL s) -> length aR = length aL -> length aO = length aL ->
      cheat pc g tr k h (p_set_wires s aL aR aO) t.

  (** The prover of prover.rs 502-1195 for circuits without randomised phase, with one
      change: the polynomial [r] gets the term [y^i h_i] at the degree of the [k]-th
      vector commitment.  The wires in [s] need not satisfy the gates.
      No code of the repository is modelled: this is an attacker. *)
  Definition forge_vec (rnd : PRand F) (pc : PedersenGens V) (g : BPGens V) (s : PState F) (k : nat) (h : list F)
    : option (R1CSProof V) :=
    let s := p_pad (p_size s) s in
    let ncomm := length (p_vec s) in
    let op := op_degree_of ncomm in
    let ops := op_splits op in
    let n := p_size s in
    let N := next_power_of_two n in
    do G <- share_G g 0 N;
    do H <- share_H g 0 N;
    let sL := map (r_sL1 rnd) (seq 0 n) in
    let sR := map (r_sR1 rnd) (seq 0 n) in
    let a_i := commit_I pc (r_i1 rnd) (p_aL s) (p_aR s) (firstn n G) (firstn n H) in
    let a_o := commit_O pc (r_o1 rnd) (p_aO s) (firstn n G) in
    let s1 := commit_I pc (r_s1 rnd) sL sR (firstn n G) (firstn n H) in
    let tr := append_u64 (p_tr s) "m" (N.of_nat (length (p_v s))) in
    let tr := append_point E (append_point E (append_point E tr "A_I1" a_i) "A_O1" a_o) "S1" s1 in
    let tr := r1cs_1phase_domain_sep tr in
    let tr := append_point E (append_point E (append_point E tr "A_I2" v0) "A_O2" v0) "S2" v0 in
    do (y, tr) <- challenge_scalar E tr "y";
    do (z, tr) <- challenge_scalar E tr "z";
    do fl <- p_flatten s z;
    do y_inv <- finv_opt y;
    do (l, r, _) <- build_polys op ops n y y_inv (p_aL s) (p_aR s) (p_aO s) sL sR fl (map snd (p_vec s));
    let r := upd r (slot op k) (fun row => zipw fadd row (map (fun i => nth i (exp_iter y n) 0 * nth i h 0) (seq 0 n))) in
    do t <- vp_inner_product l r;
    let tb := map (fun d => if Nat.eqb d op then 0 else r_t rnd d) (seq 0 (2 * (op + 1) + 1)) in
    let T := map (fun d => if Nat.eqb d op then v0 else pc_commit pc (nth d t 0) (nth d tb 0)) (seq 0 (2 * (op + 1) + 1)) in
    do tr <- append_Ts E op (seq 0 (2 * (op + 1) + 1)) T tr;
    do (u, tr) <- challenge_scalar E tr "u";
    do (x, tr) <- challenge_scalar E tr "x";
    let t_x := poly_eval t x in
    let t_x_blinding := poly_eval (upd tb op (fun _ => ip (wV fl) (p_vb s))) x in
    do lx <- vp_eval l x;
    do rx <- vp_eval r x;
    let e_b := eval_terms (e_terms op ops (r_i1 rnd) (r_o1 rnd) (r_s1 rnd) (p_vec s)) 1 x in
    let tr := append_scalar E (append_scalar E (append_scalar E tr "t_x" t_x) "t_x_blinding" t_x_blinding) "e_blinding" e_b in
    do (w, tr) <- challenge_scalar E tr "w";
    let Gf := repeat 1 n ++ repeat u (N - n) in
    do (ipp, tr) <- ipp_create E tr (vsmul w (pcB pc)) Gf (zipw fmul (exp_iter y_inv N) Gf) G H
                      (lx ++ repeat 0 (N - n)) (rx ++ map (fun i => - nth i (exp_iter y N) 0) (seq n (N - n)));
    Some (mkProof a_i a_o s1 v0 v0 v0 T t_x t_x_blinding e_b ipp).
End ForgeVec.
