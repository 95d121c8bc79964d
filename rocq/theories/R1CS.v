(** * Model of the R1CS prover and verifier back end

    bulletproofs/src/r1cs/mod.rs (op_splits), prover.rs 483-1195 and verifier.rs
    415-802.  Panics are [None]; randomness drawn from [thread_rng] is an explicit
    argument; [dbg] is [cfg(debug_assertions)]. *)

From Verif Require Export IPP CS.
Local Open Scope F_scope.

(** the operator [?] on results (Rust language) *)
Definition res_bind {A B} (o : option (Res A)) (f : A -> option (Res B)) : option (Res B) :=
  match o with Some (Ok a) => f a | Some (Err e) => Some (Err e) | None => None end.
Notation "'dor' x <- e ; k" := (res_bind e (fun x => k)) (at level 200, x pattern, e at level 100, k at level 200).

(** mod.rs 19-39 [op_splits]; [debug_assert_eq!(op_deg % 2, 0)] holds at both call sites. *)
Definition op_splits (op_deg : nat) : list (nat * nat) :=
  let mid := (op_deg / 2)%nat in
  (mid, mid) :: (op_deg, 0%nat) ::
  map (fun r_deg => ((op_deg - r_deg)%nat, r_deg)) (filter (fun r_deg => negb (Nat.eqb r_deg mid)) (seq 1 op_deg)).

(** prover.rs 521, verifier.rs 492: [2 + 2 * (ncomm / 2)] *)
Definition op_degree_of (ncomm : nat) : nat := (2 + 2 * (ncomm / 2))%nat.

(** util.rs 23-28 [T_LABELS] *)
Definition T_LABELS : list string :=
  ["T_0"; "T_1"; "T_2"; "T_3"; "T_4"; "T_5"; "T_6"; "T_7"; "T_8"; "T_9"; "T_10";
   "T_11"; "T_12"; "T_13"; "T_14"; "T_15"; "T_16"; "T_17"; "T_18"; "T_19"; "T_20";
   "T_21"; "T_22"; "T_23"; "T_24"; "T_25"; "T_26"; "T_27"; "T_28"; "T_29"; "T_30";
   "T_31"; "T_32"; "T_33"; "T_34"; "T_35"; "T_36"; "T_37"; "T_38"; "T_39"; "T_40"]%string.

Section R1CS.
  Context {F : Field} {V : VSpace F}.
  Variable E : TrEnv V.
  Variable dbg : bool.

  (** r1cs/proof.rs 33-56 [R1CSProof] *)
  Record R1CSProof := mkProof {
    A_I1 : V; A_O1 : V; S1 : V; A_I2 : V; A_O2 : V; S2 : V;
    pT : list V; pt_x : F; pt_x_blinding : F; pe_blinding : F; pipp : IPPProof V }.

  (** The prover's random scalars: prover.rs 573-581 and 731-752 (blindings and
      masks of both phases), 999-1005 (blinding of each T). *)
  Record PRand := mkRand {
    r_i1 : F; r_o1 : F; r_s1 : F; r_sL1 : nat -> F; r_sR1 : nat -> F;
    r_i2 : F; r_o2 : F; r_s2 : F; r_sL2 : nat -> F; r_sR2 : nat -> F;
    r_t : nat -> F }.

  (** prover.rs 506-509: padding loop (the loop ends after [size - len] rounds;
      [fuel] is that bound) *)
  Fixpoint p_pad (fuel : nat) (s : PState F) : PState F :=
    if (p_size s <=? length (p_aL s))%nat then s
    else match fuel with
         | O => s
         | S k => p_pad k (fst (p_allocate_multiplier s (Some (0, 0))))
         end.
  (** verifier.rs 473-475 *)
  Fixpoint v_pad (fuel : nat) (s : VState V) : VState V :=
    if (v_size s <=? v_num s)%nat then s
    else match fuel with
         | O => s
         | S k => v_pad k (fst (v_allocate_multiplier s None))
         end.

  (** [poly.coeff_mut(d)[i] = vals[i]] for all [i]: prover.rs 959-990 writes rows
      index by index; here one row at a time, in the same order of rows.  Panics
      if the row does not exist or is too short. *)
  Definition write_row (p : VecPoly F) (d : nat) (vals : list F) : option (VecPoly F) :=
    do row <- nth_error p d;
    guard (length vals <=? length row)%nat (Some (upd p d (fun _ => vals ++ skipn (length vals) row))).
  (** prover.rs 982-993: rows of the vector commitments *)
  Fixpoint write_veccom (ops : list (nat * nat)) (vecs : list (list F)) (ws : list (list F)) (lr : VecPoly F * VecPoly F) {struct vecs}
    : option (VecPoly F * VecPoly F) :=
    match vecs with
    | [] => Some lr
    | v :: vecs' =>
      match ops, ws with
      | (ld, rd) :: ops', w :: ws' =>
        guard (length v <=? length w)%nat
          (do l <- write_row (fst lr) ld v;
           do r <- write_row (snd lr) rd (firstn (length v) w);
           write_veccom ops' vecs' ws' (l, r))
      | _, _ => None
      end
    end.

  (** prover.rs 1019-1026 / verifier.rs 539-545 append all T except [op]; the
      label table has 41 entries. *)
  Fixpoint append_Ts (op : nat) (ds : list nat) (T : list V) (tr : Transcript) : option Transcript :=
    match ds with
    | [] => Some tr
    | d :: r => if Nat.eqb d op then append_Ts op r T tr
                else do lb <- nth_error T_LABELS d; do td <- nth_error T d;
                     append_Ts op r T (append_point E tr lb td)
    end.
  (** verifier.rs 539-545: the same loop with [validate_and_append_point] *)
  Fixpoint validate_Ts (op : nat) (ds : list nat) (T : list V) (tr : Transcript) : option (Res Transcript) :=
    match ds with
    | [] => Some (Ok tr)
    | d :: r => if Nat.eqb d op then validate_Ts op r T tr
                else do lb <- nth_error T_LABELS d; do td <- nth_error T d;
                     match validate_and_append_point E tr lb td with
                     | Ok tr => validate_Ts op r T tr
                     | Err e => Some (Err e)
                     end
    end.

  (** prover.rs 1115-1128: which blinding belongs to which power of [x] *)
  Definition e_terms (op : nat) (ops : list (nat * nat)) (i_b o_b s_b : F) (vec_open : list (F * list F)) : list (option F) :=
    let e := repeat None (op + 2) in
    let e := upd e (fst (nth 0 ops (0, 0)%nat)) (fun _ => Some i_b) in
    let e := upd e (fst (nth 1 ops (0, 0)%nat)) (fun _ => Some o_b) in
    let e := fold_left (fun e '(ldrd, bv) => upd e (fst ldrd) (fun _ => Some (fst bv))) (combine (skipn 2 ops) vec_open) e in
    upd e (op + 1) (fun _ => Some s_b).
  (** prover.rs 1137-1146: evaluation of the blinding polynomial *)
  Fixpoint eval_terms (ts : list (option F)) (xn x : F) : F :=
    match ts with
    | [] => 0
    | t :: r => (match t with Some v => xn * v | None => 0 end) + eval_terms r (xn * x) x
    end.

  (** prover.rs 573-708: the three first-phase commitments *)
  Definition commit_I (pc : PedersenGens V) (b : F) (aL aR : list F) (G H : list V) : V :=
    msm (b :: aL ++ aR) (pcB_blinding pc :: G ++ H).
  (** prover.rs 573-708: [A_O], without the generators [H] *)
  Definition commit_O (pc : PedersenGens V) (b : F) (aO : list F) (G : list V) : V :=
    msm (b :: aO) (pcB_blinding pc :: G).

  (** prover.rs 838-996: the polynomials [l], [r] and [t = <l, r>].  [aL], ...
      have length [n] here ([debug_assert!(i < a_L.len())] and the index
      operations at 959-975 cannot fail). *)
  Definition build_polys (op : nat) (ops : list (nat * nat)) (n : nat) (y y_inv : F)
      (aL aR aO sL sR : list F) (fl : Flat F) (vecs : list (list F)) : option (VecPoly F * VecPoly F * Poly F) :=
    let l := vp_zero n (op + 1) in
    let r := vp_zero n (op + 1) in
    let exp_y := exp_iter y n in
    let exp_y_inv := exp_iter y_inv n in
    let at_ (v : list F) i := nth i v 0 in
    do l <- write_row l (fst (nth 0 ops (0, 0)%nat)) (map (fun i => at_ aL i + at_ exp_y_inv i * at_ (wR fl) i) (seq 0 n));
    do r <- write_row r (snd (nth 0 ops (0, 0)%nat)) (map (fun i => at_ exp_y i * at_ aR i + at_ (wL fl) i) (seq 0 n));
    do l <- write_row l (fst (nth 1 ops (0, 0)%nat)) (map (fun i => at_ aO i) (seq 0 n));
    do r <- write_row r (snd (nth 1 ops (0, 0)%nat)) (map (fun i => at_ (wO fl) i - at_ exp_y i) (seq 0 n));
    do l <- write_row l (op + 1) (map (fun i => at_ sL i) (seq 0 n));
    do r <- write_row r (op + 1) (map (fun i => at_ exp_y i * at_ sR i) (seq 0 n));
    do (l, r) <- write_veccom (skipn 2 ops) vecs (wVC fl) (l, r);
    do t <- vp_inner_product l r;
    guard (Nat.eqb (length t - 1) (2 * (op + 1)))
      (Some (l, r, t)).

  (** prover.rs 1061-1106: the debug-only self check compares [t[op]] with *)
  Definition t2_value (n : nat) (y y_inv : F) (aL aR aO : list F) (fl : Flat F) (vecs : list (list F)) : F :=
    let yneg_wR := zipw fmul (wR fl) (exp_iter y_inv n) in
    let delta := ip yneg_wR (wL fl) in
    let yn := exp_iter y n in
    ip (wL fl) aL + ip (wR fl) aR + ip (wO fl) aO + vsum (zipw ip (wVC fl) vecs)
    + ip aL (zipw fmul aR yn) - ip aO yn + delta.

  (** prover.rs 502-1195 [prove_and_return_transcript] *)
  Definition r1cs_prove (rnd : PRand) (pc : PedersenGens V) (g : BPGens V) (s : PState F)
    : option (Res (R1CSProof * Transcript)) :=
    let s := p_pad (p_size s) s in
    let ncomm := length (p_vec s) in
    let op := op_degree_of ncomm in
    let ops := op_splits op in
    let s := p_set_tr s (append_u64 (p_tr s) "m" (N.of_nat (length (p_v s)))) in
    let n1 := p_size s in
    if (gens_capacity g <? n1)%nat then Some (Err InvalidGeneratorsLength)
    else
    do G1 <- share_G g 0 n1;
    do H1 <- share_H g 0 n1;
    let sL1 := map (r_sL1 rnd) (seq 0 n1) in
    let sR1 := map (r_sR1 rnd) (seq 0 n1) in
    let a_i1 := commit_I pc (r_i1 rnd) (p_aL s) (p_aR s) G1 H1 in
    let a_o1 := commit_O pc (r_o1 rnd) (p_aO s) G1 in
    let s1 := commit_I pc (r_s1 rnd) sL1 sR1 G1 H1 in
    let tr := p_tr s in
    let tr := append_point E tr "A_I1" a_i1 in
    let tr := append_point E tr "A_O1" a_o1 in
    let tr := append_point E tr "S1" s1 in
    dor s <- p_create_randomized E (p_set_tr s tr);
    let n := p_size s in
    let n2 := (n - n1)%nat in
    let padded_n := next_power_of_two n in
    let pad := (padded_n - n)%nat in
    if (gens_capacity g <? padded_n)%nat then Some (Err InvalidGeneratorsLength)
    else
    let phase2 := (0 <? n2)%nat in
    let i2 := if phase2 then r_i2 rnd else 0 in
    let o2 := if phase2 then r_o2 rnd else 0 in
    let s2b := if phase2 then r_s2 rnd else 0 in
    let sL2 := map (r_sL2 rnd) (seq 0 n2) in
    let sR2 := map (r_sR2 rnd) (seq 0 n2) in
    guard (negb phase2 || match p_vec s with [] => true | _ => false end)
    (do Gn <- share_G g 0 n;
     do Hn <- share_H g 0 n;
     let G2 := skipn n1 Gn in
     let H2 := skipn n1 Hn in
     let a_i2 := if phase2 then commit_I pc i2 (skipn n1 (p_aL s)) (skipn n1 (p_aR s)) G2 H2 else v0 in
     let a_o2 := if phase2 then commit_O pc o2 (skipn n1 (p_aO s)) G2 else v0 in
     let s2 := if phase2 then commit_I pc s2b sL2 sR2 G2 H2 else v0 in
     let tr := p_tr s in
     let tr := append_point E tr "A_I2" a_i2 in
     let tr := append_point E tr "A_O2" a_o2 in
     let tr := append_point E tr "S2" s2 in
     do (y, tr) <- challenge_scalar E tr "y";
     do (z, tr) <- challenge_scalar E tr "z";
     do fl <- p_flatten s z;
     do y_inv <- finv_opt y;
     let vecs := map snd (p_vec s) in
     do (l, r, t) <- build_polys op ops n y y_inv (p_aL s) (p_aR s) (p_aO s) (sL1 ++ sL2) (sR1 ++ sR2) fl vecs;
     let tdeg := (length t - 1)%nat in
     let tb := map (fun d => if Nat.eqb d op then 0 else r_t rnd d) (seq 0 (tdeg + 1)) in
     let T := map (fun d => if Nat.eqb d op then v0 else pc_commit pc (nth d t 0) (nth d tb 0)) (seq 0 (tdeg + 1)) in
     do tr <- append_Ts op (seq 0 (tdeg + 1)) T tr;
     do (u, tr) <- challenge_scalar E tr "u";
     do (x, tr) <- challenge_scalar E tr "x";
     let tb := upd tb op (fun _ => ip (wV fl) (p_vb s)) in
     let t_x := poly_eval t x in
     let t_x_blinding := poly_eval tb x in
     do lx <- vp_eval l x;
     do rx <- vp_eval r x;
     let exp_y := exp_iter y padded_n in
     let l_vec := lx ++ repeat 0 pad in
     let r_vec := rx ++ map (fun i => - nth i exp_y 0) (seq n pad) in
     guard (negb dbg || feqb (nth op t 0) (t2_value n y y_inv (p_aL s) (p_aR s) (p_aO s) fl vecs))
     (let i_b := r_i1 rnd + u * i2 in
      let o_b := r_o1 rnd + u * o2 in
      let s_b := r_s1 rnd + u * s2b in
      let e_b := eval_terms (e_terms op ops i_b o_b s_b (p_vec s)) 1 x in
      let tr := append_scalar E tr "t_x" t_x in
      let tr := append_scalar E tr "t_x_blinding" t_x_blinding in
      let tr := append_scalar E tr "e_blinding" e_b in
      do (w, tr) <- challenge_scalar E tr "w";
      let Q := vsmul w (pcB pc) in
      let Gf := repeat 1 n1 ++ repeat u (n2 + pad) in
      let Hf := zipw fmul (exp_iter y_inv padded_n) Gf in
      do G <- share_G g 0 padded_n;
      do H <- share_H g 0 padded_n;
      do (ipp, tr) <- ipp_create E tr Q Gf Hf G H l_vec r_vec;
      Some (Ok (mkProof a_i1 a_o1 s1 a_i2 a_o2 s2 T t_x t_x_blinding e_b ipp, tr)))).

  (** verifier.rs 726-730 [VerificationTuple] *)
  Record VTuple := mkVT { vt_points : list V; vt_scalars : list F; vt_fixed : list F }.

  (** [validate_and_append_point(..)?] *)
  Definition validate (tr : Transcript) (lb : string) (p : V) : option (Res Transcript) :=
    Some (validate_and_append_point E tr lb p).

  (** verifier.rs 616-655: the right-hand scalars *)
  Definition h_scalar (xmid x0 b : F) (xr : list F) (fl : Flat F) (u_or_1 y_inv_i si : F) (i : nat) : F :=
    let comb := xmid * nth i (wL fl) 0 + x0 * nth i (wO fl) 0
                + vsum (zipw (fun xj row => xj * nth i row 0) xr (wVC fl)) in
    u_or_1 * (y_inv_i * (comb - b * si) - 1).

  (** verifier.rs 468-723 [verification_scalars_and_points]; [rr] is the scalar
      drawn at 559 *)
  Definition v_scalars_and_points (rr : F) (proof : R1CSProof) (s : VState V) : option (Res VTuple) :=
    let s := v_pad (v_size s) s in
    let n1 := v_size s in
    let s := v_set_tr s (append_u64 (v_tr s) "m" (N.of_nat (length (v_V s)))) in
    let ncomm := length (v_vec s) in
    let op := op_degree_of ncomm in
    let t_deg := (2 * (op + 1))%nat in
    let ops := op_splits op in
    let op_vec := skipn 2 ops in
    guard (negb dbg || Nat.eqb (t_deg + 1) (length (pT proof)))
    (dor tr <- validate (v_tr s) "A_I1" (A_I1 proof);
     dor tr <- validate tr "A_O1" (A_O1 proof);
     dor tr <- validate tr "S1" (S1 proof);
     dor s <- v_create_randomized E (v_set_tr s tr);
     let n := v_size s in
     let n2 := (n - n1)%nat in
     let padded_n := next_power_of_two n in
     let pad := (padded_n - n)%nat in
     let tr := v_tr s in
     let tr := append_point E tr "A_I2" (A_I2 proof) in
     let tr := append_point E tr "A_O2" (A_O2 proof) in
     let tr := append_point E tr "S2" (S2 proof) in
     do (y, tr) <- challenge_scalar E tr "y";
     do (z, tr) <- challenge_scalar E tr "z";
     dor tr <- validate_Ts op (seq 0 (t_deg + 1)) (pT proof) tr;
     do (u, tr) <- challenge_scalar E tr "u";
     do (x, tr) <- challenge_scalar E tr "x";
     let xs := exp_iter x (t_deg + 1) in
     let rxs := exp_iter_from rr x (t_deg + 1) in
     let X d := nth d xs 0 in
     let tr := append_scalar E tr "t_x" (pt_x proof) in
     let tr := append_scalar E tr "t_x_blinding" (pt_x_blinding proof) in
     let tr := append_scalar E tr "e_blinding" (pe_blinding proof) in
     do (w, tr) <- challenge_scalar E tr "w";
     do fl <- v_flatten s z;
     dor (u_sq, u_inv_sq, sv, _) <- ipp_verification_scalars E (pipp proof) padded_n tr;
     let a := ipp_a (pipp proof) in
     let b := ipp_b (pipp proof) in
     do y_inv <- finv_opt y;
     let y_inv_vec := exp_iter y_inv padded_n in
     let yneg_wR := zipw fmul (wR fl) y_inv_vec ++ repeat 0 (padded_n - v_num s) in
     do delta <- inner_product (firstn (v_num s) yneg_wR) (wL fl);
     let us := repeat 1 n1 ++ repeat u (n2 + pad) in
     let mid := fst (nth 0 ops (0, 0)%nat) in
     let g_scalars := zipw (fun '(yw, u1) si => u1 * (X mid * yw - a * si)) (combine yneg_wR us) (firstn padded_n sv) in
     do xl <- opt_all (map (fun j => option_map (fun o => X (fst o)) (nth_error op_vec j)) (seq 0 ncomm));
     do xr <- opt_all (map (fun j => option_map (fun o => X (snd o)) (nth_error op_vec j)) (seq 0 ncomm));
     (* the iterators at 627-629 are unwrapped *)
     guard (Nat.leb padded_n (length us) && Nat.leb padded_n (length sv))
     (let h_scalars := map (fun i => h_scalar (X (snd (nth 0 ops (0, 0)%nat))) (X (snd (nth 1 ops (0, 0)%nat))) b xr fl
                                     (nth i us 0) (nth i y_inv_vec 0) (nth i (rev sv) 0) i) (seq 0 padded_n) in
      guard (negb dbg ||
             (match nth_error (pT proof) op with Some p => veqb p v0 | None => false end &&
              Nat.eqb (length (pT proof)) (t_deg + 1) &&
              (Nat.eqb ncomm 0 || (veqb (A_I2 proof) v0 && veqb (A_O2 proof) v0 && veqb (S2 proof) v0))))
      (let ds := filter (fun d => negb (Nat.eqb d op)) (seq 0 (t_deg + 1)) in
       let T_points := map (fun d => nth d (pT proof) v0) ds in
       let T_scalars := map (fun d => nth d rxs 0) ds in
       let xI := X mid in
       let xO := X (fst (nth 1 ops (0, 0)%nat)) in
       let xS := X (op + 1)%nat in
       let points := map fst (v_vec s) ++ [A_I1 proof; A_O1 proof; S1 proof; A_I2 proof; A_O2 proof; S2 proof]
                     ++ v_V s ++ T_points ++ ipp_L (pipp proof) ++ ipp_R (pipp proof) in
       let scalars := xl ++ [xI; xO; xS; xI * u; xO * u; xS * u]
                      ++ map (fun c => c * nth op rxs 0) (wV fl) ++ T_scalars ++ u_sq ++ u_inv_sq in
       let fixed := (w * (pt_x proof - a * b) + rr * (X op * (wc fl + delta) - pt_x proof))
                    :: (- pe_blinding proof - rr * pt_x_blinding proof) :: g_scalars ++ h_scalars in
       Some (Ok (mkVT points scalars fixed))))).

  (** verifier.rs 433-462 and 778-800: the final check on accumulated scalars *)
  Definition mega_check (pc : PedersenGens V) (g : BPGens V) (padded_n : nat) (points : list V) (scalars fixed : list F)
    : option (Res unit) :=
    if (gens_capacity g <? padded_n)%nat then Some (Err InvalidGeneratorsLength)
    else
    do G <- share_G g 0 padded_n;
    do H <- share_H g 0 padded_n;
    if veqb (msm (scalars ++ fixed) (points ++ [pcB pc; pcB_blinding pc] ++ G ++ H)) v0
    then Some (Ok tt) else Some (Err VerificationError).

  (** verifier.rs 421-466 [verify] *)
  Definition r1cs_verify (rr : F) (proof : R1CSProof) (pc : PedersenGens V) (g : BPGens V) (s : VState V)
    : option (Res unit) :=
    dor vt <- v_scalars_and_points rr proof s;
    mega_check pc g ((length (vt_fixed vt) - 2) / 2) (vt_points vt) (vt_scalars vt) (vt_fixed vt).

  (** verifier.rs 749-776: accumulation over the remaining tuples; [ws] are the
      random weights in order (one per tuple) *)
  Fixpoint batch_acc (vts : list VTuple) (ws : list F) (acc : list V * list F * list F) : list V * list F * list F :=
    match vts, ws with
    | vt :: vts', c :: ws' =>
      let '(pts, scs, lin) := acc in
      batch_acc vts' ws'
        (pts ++ vt_points vt, scs ++ map (fun x => x * c) (vt_scalars vt),
         zipw fadd lin (map (fun x => x * c) (vt_fixed vt)))
    | _, _ => acc
    end.
  (** verifier.rs 732-802 [batch_verify]: [unwrap] on an empty list *)
  Definition batch_verify (vts : list VTuple) (ws : list F) (pc : PedersenGens V) (g : BPGens V) : option (Res unit) :=
    match vts with
    | [] => None
    | vt :: rest =>
      let padded_n := ((length (vt_fixed vt) - 2) / 2)%nat in
      let '(pts, scs, lin) := batch_acc rest ws (vt_points vt, vt_scalars vt, vt_fixed vt) in
      mega_check pc g padded_n pts scs lin
    end.
End R1CS.
Arguments R1CSProof {F} V.
Arguments VTuple {F} V.
Arguments PRand F : clear implicits.
