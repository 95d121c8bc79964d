(** * Concrete curves for the examples

    Two small curves forming a cycle, with the same shape as the pairs used by the
    project (a = 0, b not a square, prime order, the base field of one is the
    scalar field of the other):
    y^2 = x^3 + 2 over F_139 with 163 points and y^2 = x^3 + 2 over F_163 with 139
    points.  A point is represented by its discrete logarithm; all curve laws are
    checked exhaustively. *)
From Verif Require Export Curve Toy.
From Verif Require Import UtilProofs.
From Coq Require Import Lia.
Local Open Scope F_scope.

(** The prime fields with their representation. *)
Section FpPF.
  Variable p : PrimeMod.
  Let F := FpField p.
  Lemma fp_add_mk a b : fadd (f := F) (fp_mk (p:=p) a) (fp_mk (p:=p) b) = fp_mk (p:=p) (a + b).
  Proof. apply fp_eq. change (zv (fp_mk (p:=p) (zv (fp_mk (p:=p) a) + zv (fp_mk (p:=p) b))) = zv (fp_mk (p:=p) (a + b))). rewrite !zv_mk. pose proof (p_pos p). rewrite <- Z.add_mod by lia. reflexivity. Qed.
  Lemma fpos_mk k : (fpos k : F) = fp_mk (p:=p) (Zpos k).
  Proof.
    induction k as [k IH|k IH|]; cbn [fpos].
    - rewrite IH. change (f1 : F) with (fp_mk (p:=p) 1). rewrite !fp_add_mk. f_equal. lia.
    - rewrite IH, fp_add_mk. f_equal. lia.
    - reflexivity.
  Qed.
  Lemma fN_mk n : (fN n : F) = fp_mk (p:=p) (Z.of_N n).
  Proof. destruct n; [reflexivity|apply fpos_mk]. Qed.
  (* test data, no code modelled *)
  Definition FpPF : PField.
  Proof.
    refine (mkPField F (Z.to_N p) (fun x => Z.to_N (zv (p:=p) x)) _ _ _).
    - intros x. pose proof (zv_range p x). pose proof (p_pos p). lia.
    - intros x. rewrite fN_mk, Z2N.id by apply zv_range. apply fp_mk_zv.
    - intros n. rewrite fN_mk, zv_mk. pose proof (p_pos p). rewrite Z2N.inj_mod by lia. rewrite N2Z.id. reflexivity.
  Defined.
End FpPF.

(** ** Curves from a table of the multiples of a generator *)
Section Build.
  Variables (p q : PrimeMod) (b : Z) (tbl : list (Z * Z)).
  Let Fb := FpPF p.
  Let Fs := FpPF q.
  Let V := RegV Fs.
  (* test data, no code modelled *)
  Definition tc_coords (k : V) : option (Fb * Fb) :=
    if (zv (p:=q) k =? 0)%Z then None
    else let xy := nth (Z.to_nat (zv (p:=q) k) - 1) tbl (0, 0)%Z in Some (fp_mk (p:=p) (fst xy), fp_mk (p:=p) (snd xy)).
  (* test data, no code modelled *)
  Definition xy_eqb (o : option (Fb * Fb)) (x y : Fb) : bool :=
    match o with Some (x', y') => feqb x' x && feqb y' y | None => false end.
  Lemma xy_eqb_true o x y : xy_eqb o x y = true <-> o = Some (x, y).
  Proof.
    destruct o as [[x' y']|]; unfold xy_eqb; [|split; discriminate]. rewrite andb_true_iff, !(feqb_true (F:=Fb)). split; [intros [-> ->]; reflexivity|].
    intros H. split; congruence.
  Qed.
  (* test data, no code modelled *)
  Definition tc_of_coords (x y : Fb) : option V := find (fun k => xy_eqb (tc_coords k) x y) (fp_all q).
  (* test data, no code modelled *)
  Definition tc_eqn (x y : Fb) : bool := feqb (y * y) (x * x * x + 0 * x + fp_mk (p:=p) b).
  (* test data, no code modelled *)
  Definition chk_of : bool := forallb (fun k : V =>
    match tc_coords k with None => true | Some (x, y) => match tc_of_coords x y with Some k' => veqb k' k | None => false end end) (fp_all q).
  (* test data, no code modelled *)
  Definition chk_on : bool := forallb (fun k : V => match tc_coords k with None => true | Some (x, y) => tc_eqn x y end) (fp_all q).
  (* test data, no code modelled *)
  Definition chk_ex : bool := forallb (fun x : Fb => forallb (fun y : Fb => if tc_eqn x y then is_some (tc_of_coords x y) else true) (fp_all p)) (fp_all p).
  (* test data, no code modelled *)
  Definition chk_neg : bool := forallb (fun k : V => match tc_coords k with None => true | Some (x, y) => xy_eqb (tc_coords (vopp k)) x (- y) end) (fp_all q).
  (* test data, no code modelled *)
  Definition chk_add : bool := forallb (fun k : V => forallb (fun k' : V =>
    match tc_coords k, tc_coords k' with
    | Some (x1, y1), Some (x2, y2) =>
      if feqb x1 x2 then true else
      let l := (y2 - y1) / (x2 - x1) in let x3 := l * l - x1 - x2 in xy_eqb (tc_coords (vadd k k')) x3 (l * (x1 - x3) - y1)
    | _, _ => true end) (fp_all q)) (fp_all q).
  Hypothesis H_of : chk_of = true.
  Hypothesis H_on : chk_on = true.
  Hypothesis H_ex : chk_ex = true.
  Hypothesis H_neg : chk_neg = true.
  Hypothesis H_add : chk_add = true.

  Lemma tc_of_sound x y k : tc_of_coords x y = Some k -> tc_coords k = Some (x, y).
  Proof. intros H. apply find_some in H. apply xy_eqb_true, H. Qed.
  Lemma tc_of_spec x y k : tc_of_coords x y = Some k <-> tc_coords k = Some (x, y).
  Proof.
    split; [apply tc_of_sound|]. intros H. unfold chk_of in H_of. rewrite forallb_forall in H_of. specialize (H_of k (fp_all_spec q k)).
    cbv beta in H_of. rewrite H in H_of. cbn beta iota in H_of. destruct (tc_of_coords x y) as [k'|]; [|discriminate]. apply veqb_true in H_of. rewrite H_of. reflexivity.
  Qed.
  (* test data, no code modelled *)
  Definition toy_curve : SWCurve Fb Fs.
  Proof.
    refine (mkSW Fb Fs V 0 (fp_mk (p:=p) b) tc_coords tc_of_coords _ tc_of_spec _ _ _ _).
    - intros k. unfold tc_coords. destruct (Z.eqb_spec (zv (p:=q) k) 0) as [H|H].
      + split; [intros _; apply fp_eq; rewrite H; symmetry; apply zv_mk|reflexivity].
      + split; [discriminate|]. intros ->. exfalso. apply H. exact (zv_mk q 0).
    - intros k x y H. unfold chk_on in H_on. rewrite forallb_forall in H_on. specialize (H_on k (fp_all_spec q k)). cbv beta in H_on. rewrite H in H_on.
      cbn beta iota in H_on. apply feqb_true in H_on. exact H_on.
    - intros x y H. unfold chk_ex in H_ex. rewrite forallb_forall in H_ex. specialize (H_ex x (fp_all_spec p x)). cbv beta in H_ex.
      rewrite forallb_forall in H_ex. specialize (H_ex y (fp_all_spec p y)). cbv beta in H_ex.
      assert (He : tc_eqn x y = true) by (apply feqb_true; exact H). rewrite He in H_ex.
      destruct (tc_of_coords x y) as [k|] eqn:Ek; [|discriminate]. exists k. apply tc_of_sound. exact Ek.
    - intros k x y H. unfold chk_neg in H_neg. rewrite forallb_forall in H_neg. specialize (H_neg k (fp_all_spec q k)). cbv beta in H_neg. rewrite H in H_neg.
      cbn beta iota in H_neg. apply xy_eqb_true in H_neg. exact H_neg.
    - intros k k' x1 y1 x2 y2 H1 H2 Hx. unfold chk_add in H_add. rewrite forallb_forall in H_add. specialize (H_add k (fp_all_spec q k)). cbv beta in H_add.
      rewrite forallb_forall in H_add. specialize (H_add k' (fp_all_spec q k')). cbv beta in H_add. rewrite H1, H2 in H_add. cbn beta iota in H_add.
      destruct (feqb x1 x2) eqn:E; [apply feqb_true in E; contradiction|]. cbv zeta in H_add. apply xy_eqb_true in H_add. exact H_add.
  Defined.
End Build.

(* test data, no code modelled *)
Definition PM139 : PrimeMod := mkPM 139 (is_prime_spec 139 eq_refl).
(* test data, no code modelled *)
Definition PM163 : PrimeMod := mkPM 163 (is_prime_spec 163 eq_refl).
(* test data, no code modelled *)
Definition PF139 : PField := FpPF PM139.
(* test data, no code modelled *)
Definition PF163 : PField := FpPF PM163.
(** k*G for k = 1..162 on y^2 = x^3 + 2 over F_139 *)
Definition tbl0 : list (Z * Z) := [
    (3, 53); (59, 56); (29, 30); (6, 94); (116, 117); (119, 8); (81, 18); (134, 4); (33, 76); (71, 108); (4, 30); (105, 69); (85, 5); (106, 109); (41,
    37); (74, 72); (68, 4); (51, 73); (90, 15); (27, 15); (70, 111); (26, 8); (35, 64); (117, 125); (76, 135); (138, 1); (28, 39); (133, 131); (109, 78);
    (24, 64); (7, 117); (107, 90); (110, 76); (50, 72); (99, 130); (16, 22); (64, 39); (118, 101); (22, 124); (91, 101); (43, 1); (135, 63); (108, 97);
    (72, 69); (115, 56); (9, 133); (104, 83); (95, 5); (82, 97); (15, 67); (49, 125); (39, 78); (80, 75); (127, 130); (44, 37); (101, 70); (100, 133);
    (10, 53); (126, 86); (30, 133); (98, 134); (63, 108); (125, 90); (47, 100); (21, 111); (31, 73); (97, 138); (46, 90); (20, 94); (54, 102); (88, 97);
    (5, 31); (113, 45); (52, 130); (112, 14); (66, 18); (48, 111); (69, 38); (57, 73); (131, 18); (130, 61); (130, 78); (131, 121); (57, 66); (69, 101);
    (48, 28); (66, 121); (112, 125); (52, 9); (113, 94); (5, 108); (88, 42); (54, 37); (20, 45); (46, 49); (97, 1); (31, 66); (21, 28); (47, 39); (125,
    49); (63, 31); (98, 5); (30, 6); (126, 53); (10, 86); (100, 6); (101, 69); (44, 102); (127, 9); (80, 64); (39, 61); (49, 14); (15, 72); (82, 42); (95,
    134); (104, 56); (9, 6); (115, 83); (72, 70); (108, 42); (135, 76); (43, 138); (91, 38); (22, 15); (118, 38); (64, 100); (16, 117); (99, 9); (50, 67);
    (110, 63); (107, 49); (7, 22); (24, 75); (109, 61); (133, 8); (28, 100); (138, 138); (76, 4); (117, 14); (35, 75); (26, 131); (70, 28); (27, 124);
    (90, 124); (51, 66); (68, 135); (74, 67); (41, 102); (106, 30); (85, 134); (105, 70); (4, 109); (71, 31); (33, 63); (134, 135); (81, 121); (119, 131);
    (116, 22); (6, 45); (29, 109); (59, 83); (3, 86)]%Z.
(** k*G for k = 1..138 on y^2 = x^3 + 2 over F_163 *)
Definition tbl1 : list (Z * Z) := [
    (2, 70); (130, 96); (8, 158); (24, 42); (78, 86); (144, 106); (153, 119); (139, 14); (44, 153); (138, 158); (77, 102); (6, 50); (17, 5); (36, 23);
    (131, 46); (101, 119); (120, 56); (84, 53); (92, 56); (39, 106); (162, 162); (52, 105); (72, 44); (124, 129); (150, 139); (143, 57); (82, 105); (62,
    26); (51, 42); (107, 153); (103, 38); (158, 23); (88, 121); (129, 12); (19, 129); (114, 107); (61, 139); (50, 12); (12, 10); (22, 50); (140, 68); (45,
    70); (116, 93); (133, 68); (21, 102); (132, 140); (10, 26); (59, 162); (29, 58); (100, 46); (117, 38); (135, 113); (42, 96); (53, 68); (154, 67); (65,
    61); (106, 38); (112, 14); (20, 34); (145, 53); (97, 53); (115, 24); (123, 86); (91, 26); (95, 117); (75, 149); (147, 12); (125, 77); (105, 1); (105,
    162); (125, 86); (147, 151); (75, 14); (95, 46); (91, 137); (123, 77); (115, 139); (97, 110); (145, 110); (20, 129); (112, 149); (106, 125); (65,
    102); (154, 96); (53, 95); (42, 67); (135, 50); (117, 125); (100, 117); (29, 105); (59, 1); (10, 137); (132, 23); (21, 61); (133, 95); (116, 70); (45,
    93); (140, 95); (22, 113); (12, 153); (50, 151); (61, 24); (114, 56); (19, 34); (129, 151); (88, 42); (158, 140); (103, 125); (107, 10); (51, 121);
    (62, 137); (82, 58); (143, 106); (150, 24); (124, 34); (72, 119); (52, 58); (162, 1); (39, 57); (92, 107); (84, 110); (120, 107); (101, 44); (131,
    117); (36, 140); (17, 158); (6, 113); (77, 61); (138, 5); (44, 10); (139, 149); (153, 44); (144, 57); (78, 77); (24, 121); (8, 5); (130, 67); (2, 93)]%Z.
Lemma chk0_of : chk_of PM139 PM163 tbl0 = true. Proof. vm_compute. reflexivity. Qed.
Lemma chk0_on : chk_on PM139 PM163 2 tbl0 = true. Proof. vm_compute. reflexivity. Qed.
Lemma chk0_ex : chk_ex PM139 PM163 2 tbl0 = true. Proof. vm_compute. reflexivity. Qed.
Lemma chk0_neg : chk_neg PM139 PM163 tbl0 = true. Proof. vm_compute. reflexivity. Qed.
Lemma chk0_add : chk_add PM139 PM163 tbl0 = true. Proof. vm_compute. reflexivity. Qed.
Lemma chk1_of : chk_of PM163 PM139 tbl1 = true. Proof. vm_compute. reflexivity. Qed.
Lemma chk1_on : chk_on PM163 PM139 2 tbl1 = true. Proof. vm_compute. reflexivity. Qed.
Lemma chk1_ex : chk_ex PM163 PM139 2 tbl1 = true. Proof. vm_compute. reflexivity. Qed.
Lemma chk1_neg : chk_neg PM163 PM139 tbl1 = true. Proof. vm_compute. reflexivity. Qed.
Lemma chk1_add : chk_add PM163 PM139 tbl1 = true. Proof. vm_compute. reflexivity. Qed.
(** The "even" curve: coordinates in F_139, scalars in F_163. *)
Definition TC0 : SWCurve PF139 PF163 := toy_curve PM139 PM163 2 tbl0 chk0_of chk0_on chk0_ex chk0_neg chk0_add.
(** The "odd" curve: coordinates in F_163, scalars in F_139. *)
Definition TC1 : SWCurve PF163 PF139 := toy_curve PM163 PM139 2 tbl1 chk1_of chk1_on chk1_ex chk1_neg chk1_add.
