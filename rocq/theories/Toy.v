(** * A concrete environment for the examples

    Scalars are the field with 101 elements, the group is that field as a module
    over itself, hashing is a small polynomial hash.  Used only to exhibit
    non-trivial instances of the theorems' hypotheses. *)
From Verif Require Export CSSpec.
From Verif Require Export Fp.
Local Open Scope F_scope.

(** Computations are checked through booleans, so that proof components of field
    elements are never normalised. *)
Definition is_some {A} (o : option A) : bool := match o with Some _ => true | None => false end.
Lemma is_some_ex {A} (o : option A) : is_some o = true -> exists a, o = Some a.
Proof. destruct o; [eauto|discriminate]. Qed.
Lemma is_some_none {A} (o : option A) : is_some o = false -> o = None.
Proof. destruct o; [discriminate|reflexivity]. Qed.

(* test data, no code modelled *)
Definition the {A} (d : A) (o : option A) : A := match o with Some x => x | None => d end.
Lemma the_some {A} (d : A) (o : option A) : is_some o = true -> o = Some (the d o).
Proof. destruct o; [reflexivity|discriminate]. Qed.
(* test data, no code modelled *)
Definition is_nil {A} (l : list A) : bool := match l with [] => true | _ => false end.
Lemma nil_of {A} (l : list A) : is_nil l = true -> l = [].
Proof. destruct l; [reflexivity|discriminate]. Qed.
(* test data, no code modelled *)
Definition ok_proof {A B} (o : option (Res (A * B))) : option A := match o with Some (Ok (a, _)) => Some a | _ => None end.
Lemma ok_proof_some {A B} (o : option (Res (A * B))) a : ok_proof o = Some a -> exists b, o = Some (Ok (a, b)).
Proof. destruct o as [[[a' b]|]|]; cbn; try discriminate. intros [= ->]. eauto. Qed.

Section Toy.
  Variable p : PrimeMod.
  Let F := FpField p.

  (* test data, no code modelled *)
  Definition toy_hash (b : bytes) : N := fold_left (fun h x => ((h * h + x * 263 + 7) mod 1000003)%N) b 12345%N.
  (* test data, no code modelled *)
  Definition event_bytes (e : Event) : bytes :=
    match e with Msg l m => 1%N :: str_bytes l ++ m | Chal l => 2%N :: str_bytes l end.
  (* test data, no code modelled *)
  Definition enc_fp (x : F) : bytes := le_bytes 2 (Z.to_N (zv (p:=p) x)).
  (** Candidate decoding: values below twice the modulus, rejected when not below the modulus. *)
  Definition fp_from_bytes (b : bytes) : option F :=
    let v := (Z.of_N (toy_hash b) mod (2 * pm p))%Z in
    if (v <? pm p)%Z then Some (fp_mk (p:=p) v) else None.
  (* test data, no code modelled *)
  Definition toy_env : TrEnv (RegV F) :=
    mkTrEnv (V := RegV F) enc_fp enc_fp
      (fun t l => le_bytes 4 (toy_hash (concat (map event_bytes t) ++ str_bytes l)))
      (fun b => le_bytes 4 (toy_hash b))
      fp_from_bytes.
  (* test data, no code modelled *)
  Definition toy_chain (label : bytes) (i : nat) : RegV F :=
    fp_mk (p:=p) (1 + Z.of_N (toy_hash (le_bytes 4 (toy_hash (label ++ [N.of_nat i])))) mod (pm p - 1)).
  (* test data, no code modelled *)
  Definition toy_pc : PedersenGens (RegV F) := mkPC (V := RegV F) (fp_mk (p:=p) 2) (fp_mk (p:=p) 5).
  (* test data, no code modelled *)
  Definition toy_gens (n k : nat) : BPGens (RegV F) := bp_new toy_chain n k.
End Toy.

(** Short-hand for constants. *)
Definition z101 (z : Z) : F101 := fp_mk (p:=PM101) z.
(* test data, no code modelled *)
Definition E101 := toy_env PM101.
(* test data, no code modelled *)
Definition pc101 := toy_pc PM101.
(* test data, no code modelled *)
Definition g101 := toy_gens PM101 8 2.
(* test data, no code modelled *)
Definition i101 (x : F101) : Z := zv (p := PM101) x.

(** The product of two modules, for examples with independent generators. *)
Section Prod.
  Context {F : Field} (V W : VSpace F).
  (* test data, no code modelled *)
  Definition prod_eqb (x y : V * W) : bool := veqb (fst x) (fst y) && veqb (snd x) (snd y).
  Lemma prod_eqb_spec x y : reflect (x = y) (prod_eqb x y).
  Proof.
    destruct x as [a b], y as [c d]. unfold prod_eqb. cbn.
    destruct (veqb_spec _ _ a c) as [->|]; [|constructor; congruence].
    destruct (veqb_spec _ _ b d) as [->|]; constructor; congruence.
  Qed.
  (* test data, no code modelled *)
  Definition ProdV : VSpace F.
  Proof.
    refine (mkVSpace F (V * W)%type (v0, v0) (fun x y => (vadd (fst x) (fst y), vadd (snd x) (snd y)))
      (fun x => (vopp (fst x), vopp (snd x))) (fun c x => (vsmul c (fst x), vsmul c (snd x))) prod_eqb prod_eqb_spec
      _ _ _ _ _ _ _ _).
    - intros [] []. cbn. f_equal; apply vadd_comm.
    - intros [] [] []. cbn. f_equal; apply vadd_assoc.
    - intros []. cbn. f_equal; apply vadd_0_l.
    - intros []. cbn. f_equal; apply vadd_opp_r.
    - intros []. cbn. f_equal; apply vsmul_1.
    - intros ? ? []. cbn. f_equal; apply vsmul_mul.
    - intros ? ? []. cbn. f_equal; apply vsmul_add_l.
    - intros ? [] []. cbn. f_equal; apply vsmul_add_r.
  Defined.
End Prod.

(** [F101^5] with its unit vectors. *)
Definition V5 : VSpace F101 := ProdV (RegV F101) (ProdV (RegV F101) (ProdV (RegV F101) (ProdV (RegV F101) (RegV F101)))).
(* test data, no code modelled *)
Definition v5 (a b c d e : Z) : V5 := (z101 a, (z101 b, (z101 c, (z101 d, z101 e)))).

(** A transcript environment that answers every challenge with [c]. *)
Definition const_env {F : Field} (V : VSpace F) (c : F) : TrEnv V :=
  mkTrEnv (V := V) (fun _ => []) (fun _ => []) (fun _ _ => []) (fun b => b) (fun _ => Some c).
