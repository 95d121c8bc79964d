(** * Properties of the encoders and decoders (C57, C58, C16) *)
From Verif Require Import Serial UtilProofs RerandProofs Fp Toy ToyCurve.
From Coq Require Import List Lia NArith Arith.
Import ListNotations.
Local Open Scope nat_scope.

(** ** Specification *)
(** Decoding the encoding of [a], whatever follows it, gives back [a] and what follows. *)
Definition roundtrips {A} (c : Codec A) (ok : A -> Prop) : Prop := forall a rest, ok a -> c_dec c (c_enc c a ++ rest) = Some (a, rest).
(** The announced size is the number of bytes written. *)
Definition measured {A} (c : Codec A) (ok : A -> Prop) : Prop := forall a, ok a -> c_size c a = length (c_enc c a).
(** What is decoded is an encoding. *)
Definition canonical {A} (c : Codec A) : Prop := forall bs a rest, c_dec c bs = Some (a, rest) -> bs = c_enc c a ++ rest.
(** All values take the same number of bytes. *)
Definition fixed_length {A} (c : Codec A) (k : nat) : Prop := forall a, length (c_enc c a) = k.
(* test data or vocabulary of statements, no code modelled *)
Definition any {A} (_ : A) : Prop := True.
(** The length of a list is a [u64] (in Rust this is always so). *)
Definition fits {A} (l : list A) : Prop := (N.of_nat (length l) < 2 ^ 64)%N.
(* test data or vocabulary of statements, no code modelled *)
Definition proof_fits {F : Field} {V : VSpace F} (p : R1CSProof V) : Prop := fits (pT p) /\ fits (ipp_L (pipp p)) /\ fits (ipp_R (pipp p)).
(* test data or vocabulary of statements, no code modelled *)
Definition path_fits {F0 F1 : PField} {P0 : SWCurve F1 F0} {P1 : SWCurve F0 F1} (p : Path P0 P1) : Prop := fits (pa_odd p) /\ fits (pa_even p).
(* test data or vocabulary of statements, no code modelled *)
Definition pour_fits {F0 F1 : PField} {P0 : SWCurve F1 F0} {P1 : SWCurve F0 F1} {FC : Field} {C : VSpace FC} (p : Pour P0 P1 C) : Prop :=
  proof_fits (po_even p) /\ proof_fits (po_odd p) /\ path_fits (po_path0 p) /\ path_fits (po_path1 p).

(** ** Vectors *)
Lemma le_bytes_length k : forall n, length (le_bytes k n) = k.
Proof. induction k as [|k IH]; intros n; [reflexivity|]. cbn [le_bytes length]. rewrite IH. reflexivity. Qed.
Lemma le_value_bytes k : forall n, le_value (le_bytes k n) = (n mod 256 ^ N.of_nat k)%N.
Proof.
  induction k as [|k IH]; intros n; [cbn; rewrite N.mod_1_r; reflexivity|]. cbn [le_bytes le_value]. rewrite IH.
  rewrite Nat2N.inj_succ, N.pow_succ_r'. rewrite N.mod_mul_r; [lia|lia|apply N.pow_nonzero; lia].
Qed.
Lemma u64_roundtrip n rest : (n < 2 ^ 64)%N -> u64_dec (le_bytes 8 n ++ rest) = Some (n, rest).
Proof.
  intros H. unfold u64_dec. rewrite app_length, le_bytes_length. unfold guard. replace (8 <=? 8 + length rest) with true by (symmetry; apply Nat.leb_le; lia).
  rewrite firstn_app, skipn_app, le_bytes_length, Nat.sub_diag. rewrite firstn_all2, skipn_all2 by (rewrite le_bytes_length; lia). cbn [firstn skipn]. rewrite app_nil_r, le_value_bytes.
  rewrite N.mod_small; [reflexivity|exact H].
Qed.
Lemma seq_roundtrip {A} (c : Codec A) : roundtrips c any -> forall l rest, seq_dec c (length l) (seq_enc c l ++ rest) = Some (l, rest).
Proof.
  intros H. induction l as [|a l IH]; intros rest; [reflexivity|]. cbn [length seq_dec]. unfold seq_enc. cbn [map concat]. rewrite <- app_assoc, H by exact I. cbn [opt_bind].
  fold (seq_enc c l). rewrite IH. reflexivity.
Qed.
Lemma vec_roundtrip {A} (c : Codec A) : roundtrips c any -> roundtrips (vec_codec c) fits.
Proof. intros H l rest Hf. cbn [vec_codec c_enc c_dec]. rewrite <- app_assoc, u64_roundtrip by exact Hf. cbn [opt_bind]. rewrite Nat2N.id. apply seq_roundtrip, H. Qed.
Lemma seq_measured {A} (c : Codec A) : measured c any -> forall l, seq_size c l = length (seq_enc c l).
Proof. intros H. induction l as [|a l IH]; [reflexivity|]. unfold seq_enc in *. cbn [seq_size fold_right map concat]. rewrite app_length, <- IH, H by exact I. reflexivity. Qed.
Lemma vec_measured {A} (c : Codec A) : measured c any -> measured (vec_codec c) any.
Proof. intros H l _. cbn [vec_codec c_enc c_size]. rewrite app_length, le_bytes_length, seq_measured by exact H. reflexivity. Qed.
Lemma seq_canonical {A} (c : Codec A) : canonical c -> forall n bs l rest, seq_dec c n bs = Some (l, rest) -> bs = seq_enc c l ++ rest /\ length l = n.
Proof.
  intros H. induction n as [|n IH]; intros bs l rest E; cbn [seq_dec] in E.
  - apply Some_inj in E. injection E as <- <-. split; reflexivity.
  - destruct (c_dec c bs) as [[a bs1]|] eqn:D; [|discriminate E]. cbn [opt_bind] in E. destruct (seq_dec c n bs1) as [[l' bs2]|] eqn:D2; [|discriminate E]. cbn [opt_bind] in E.
    apply Some_inj in E. injection E as <- <-. apply IH in D2. destruct D2 as [-> Hl]. apply H in D. rewrite D. unfold seq_enc. cbn [map concat length]. rewrite <- app_assoc. split; [reflexivity|lia].
Qed.
Lemma le_bytes_value bs : Forall (fun b => (b < 256)%N) bs -> le_bytes (length bs) (le_value bs) = bs.
Proof.
  induction 1 as [|b bs Hb H IH]; [reflexivity|]. cbn [length le_bytes le_value]. rewrite (N.mul_comm 256), N.mod_add, N.div_add by lia. rewrite N.mod_small, N.div_small by exact Hb. cbn [N.add]. rewrite IH. reflexivity.
Qed.
Lemma le_value_lt bs : Forall (fun b => (b < 256)%N) bs -> (le_value bs < 256 ^ N.of_nat (length bs))%N.
Proof. induction 1 as [|b bs Hb H IH]; [cbn; lia|]. cbn [le_value length]. rewrite Nat2N.inj_succ, N.pow_succ_r'. lia. Qed.
(** Byte strings. *)
Definition is_bytes (bs : bytes) : Prop := Forall (fun b => (b < 256)%N) bs.
Lemma vec_canonical {A} (c : Codec A) : canonical c -> forall bs l rest, is_bytes bs -> c_dec (vec_codec c) bs = Some (l, rest) -> bs = c_enc (vec_codec c) l ++ rest /\ fits l.
Proof.
  intros H bs l rest Hb. cbn [vec_codec c_dec c_enc]. unfold u64_dec, guard. destruct (8 <=? length bs) eqn:L8; [|discriminate]. cbn [opt_bind]. intros E. apply Nat.leb_le in L8.
  apply (seq_canonical _ H) in E. destruct E as [E Hl].
  assert (Hf : Forall (fun b => (b < 256)%N) (firstn 8 bs)). { apply Forall_forall. intros x Hx. rewrite <- (firstn_skipn 8 bs) in Hb. apply Forall_app in Hb. destruct Hb as [Hb _]. rewrite Forall_forall in Hb. apply Hb, Hx. }
  assert (Hlen : length (firstn 8 bs) = 8) by (rewrite firstn_length; lia).
  assert (Hn : N.of_nat (length l) = le_value (firstn 8 bs)) by lia. pose proof (le_value_lt _ Hf) as Hlt. rewrite Hlen in Hlt. split.
  - rewrite Hn. rewrite <- (firstn_skipn 8 bs) at 1. rewrite E, <- app_assoc. f_equal. rewrite <- Hlen at 2. rewrite le_bytes_value by exact Hf. reflexivity.
  - unfold fits. rewrite Hn. exact Hlt.
Qed.

(** ** C57: decoding an encoding *)
Section RT.
  Context {F : Field} {V : VSpace F} (cP : Codec V) (cS : Codec F).
  Hypotheses (HP : roundtrips cP any) (HS : roundtrips cS any).

  Lemma ipp_roundtrip : roundtrips (ipp_codec cP cS) (fun p => fits (ipp_L p) /\ fits (ipp_R p)).
  Proof.
    intros [l r a b] rest [H1 H2]. cbn [ipp_codec c_enc c_dec ipp_L ipp_R ipp_a ipp_b] in *. rewrite <- !app_assoc.
    rewrite (vec_roundtrip cP HP _ _ H1). cbn [opt_bind]. rewrite (vec_roundtrip cP HP _ _ H2). cbn [opt_bind]. rewrite HS by exact I. cbn [opt_bind]. rewrite HS by exact I. reflexivity.
  Qed.
  Lemma phase2_roundtrip p rest : phase2_dec cP (phase2_enc cP p ++ rest) = Some (A_I2 p, A_O2 p, S2 p, rest).
  Proof.
    unfold phase2_enc, missing_phase2. destruct (veqb_spec _ V (A_I2 p) v0) as [E1|E1]; cbn [andb].
    1: destruct (veqb_spec _ V (A_O2 p) v0) as [E2|E2]; cbn [andb].
    1: destruct (veqb_spec _ V (S2 p) v0) as [E3|E3]; cbn [andb].
    1: rewrite E1, E2, E3; reflexivity.
    all: unfold phase2_dec; cbn [app u8_dec opt_bind]; unfold TWO_PHASE_COMMITMENTS; cbn [N.eqb Pos.eqb]; rewrite <- !app_assoc;
      rewrite HP by exact I; cbn [opt_bind]; rewrite HP by exact I; cbn [opt_bind]; rewrite HP by exact I; reflexivity.
  Qed.
  Lemma proof_roundtrip : roundtrips (proof_codec cP cS) proof_fits.
  Proof.
    intros p rest (HT & HL & HR). cbn [proof_codec c_enc c_dec]. rewrite <- !app_assoc.
    rewrite HP by exact I. cbn [opt_bind]. rewrite HP by exact I. cbn [opt_bind]. rewrite HP by exact I. cbn [opt_bind]. rewrite phase2_roundtrip. cbn [opt_bind].
    rewrite (vec_roundtrip cP HP _ _ HT). cbn [opt_bind]. rewrite HS by exact I. cbn [opt_bind]. rewrite HS by exact I. cbn [opt_bind]. rewrite HS by exact I. cbn [opt_bind].
    rewrite ipp_roundtrip by (split; assumption). cbn [opt_bind]. destruct p; reflexivity.
  Qed.
End RT.

Theorem C57_proof : forall (F : Field) (V : VSpace F) (cP : Codec V) (cS : Codec F), roundtrips cP any -> roundtrips cS any ->
  roundtrips (ipp_codec cP cS) (fun p => fits (ipp_L p) /\ fits (ipp_R p)) /\ roundtrips (proof_codec cP cS) proof_fits /\
  (forall p, proof_fits p -> proof_from_bytes cP cS (proof_to_bytes cP cS p) = Ok p).
Proof.
  intros F V cP cS HP HS. split; [|split]. apply ipp_roundtrip; assumption. apply proof_roundtrip; assumption.
  intros p Hp. unfold proof_from_bytes, proof_to_bytes. rewrite <- (app_nil_r (c_enc _ _)). rewrite proof_roundtrip by assumption. reflexivity.
Qed.
Theorem C57_path : forall (F0 F1 : PField) (P0 : SWCurve F1 F0) (P1 : SWCurve F0 F1) (c0 : Codec P0) (c1 : Codec P1), roundtrips c0 any -> roundtrips c1 any ->
  roundtrips (path_codec c0 c1) path_fits.
Proof.
  intros F0 F1 P0 P1 c0 c1 H0 H1 [s o e] rest [Ho He]. cbn [path_codec c_enc c_dec pa_selected pa_odd pa_even] in *. rewrite <- !app_assoc. rewrite H0 by exact I. cbn [opt_bind].
  rewrite (vec_roundtrip c1 H1 _ _ Ho). cbn [opt_bind]. rewrite (vec_roundtrip c0 H0 _ _ He). reflexivity.
Qed.
Theorem C57_transaction : forall (F0 F1 : PField) (P0 : SWCurve F1 F0) (P1 : SWCurve F0 F1) (FC : Field) (C : VSpace FC)
    (c0 : Codec P0) (c1 : Codec P1) (s0 : Codec F0) (s1 : Codec F1) (cC : Codec C) (sC : Codec FC),
  roundtrips c0 any -> roundtrips c1 any -> roundtrips s0 any -> roundtrips s1 any -> roundtrips cC any -> roundtrips sC any ->
  roundtrips (pour_codec c0 c1 s0 s1 cC) pour_fits /\ roundtrips (tx_codec sC) (fun t => fits (tx_pour t)).
Proof.
  intros F0 F1 P0 P1 FC C c0 c1 s0 s1 cC sC H0 H1 Hs0 Hs1 HC HsC. split.
  - intros p rest (He & Ho & Hp0 & Hp1). cbn [pour_codec c_enc c_dec]. rewrite <- !app_assoc.
    rewrite (proof_roundtrip c0 s0 H0 Hs0 _ _ He). cbn [opt_bind]. rewrite (proof_roundtrip c1 s1 H1 Hs1 _ _ Ho). cbn [opt_bind].
    rewrite (C57_path _ _ _ _ c0 c1 H0 H1 _ _ Hp0). cbn [opt_bind]. rewrite (C57_path _ _ _ _ c0 c1 H0 H1 _ _ Hp1). cbn [opt_bind].
    rewrite HC by exact I. cbn [opt_bind]. rewrite HC by exact I. cbn [opt_bind]. rewrite H0 by exact I. cbn [opt_bind]. rewrite H0 by exact I. cbn [opt_bind]. destruct p; reflexivity.
  - intros t rest Ht. cbn [tx_codec c_enc c_dec]. rewrite <- !app_assoc. do 4 (rewrite HsC by exact I; cbn [opt_bind]).
    rewrite (vec_roundtrip u8_codec) by (exact Ht || (intros b r _; reflexivity)). cbn [opt_bind]. destruct t; reflexivity.
Qed.
Lemma roundtrip_pour {F0 F1 : PField} {P0 : SWCurve F1 F0} {P1 : SWCurve F0 F1} {FC : Field} {C : VSpace FC} (c0 : Codec P0) (c1 : Codec P1) (s0 : Codec F0) (s1 : Codec F1) (cC : Codec C) :
  roundtrips c0 any -> roundtrips c1 any -> roundtrips s0 any -> roundtrips s1 any -> roundtrips cC any -> roundtrips (pour_codec c0 c1 s0 s1 cC) pour_fits.
Proof.
  intros H0 H1 Hs0 Hs1 HC p rest (He & Ho & Hp0 & Hp1). cbn [pour_codec c_enc c_dec]. rewrite <- !app_assoc.
  rewrite (proof_roundtrip c0 s0 H0 Hs0 _ _ He). cbn [opt_bind]. rewrite (proof_roundtrip c1 s1 H1 Hs1 _ _ Ho). cbn [opt_bind].
  rewrite (C57_path _ _ _ _ c0 c1 H0 H1 _ _ Hp0). cbn [opt_bind]. rewrite (C57_path _ _ _ _ c0 c1 H0 H1 _ _ Hp1). cbn [opt_bind].
  rewrite HC by exact I. cbn [opt_bind]. rewrite HC by exact I. cbn [opt_bind]. rewrite H0 by exact I. cbn [opt_bind]. rewrite H0 by exact I. cbn [opt_bind]. destruct p; reflexivity.
Qed.
(** Multi-paths have no decoder, but their encoding determines them once the number of
    selected points is fixed, as it is by the type. *)
Theorem C57_multipath_injective : forall (F0 F1 : PField) (P0 : SWCurve F1 F0) (P1 : SWCurve F0 F1) (c0 : Codec P0) (c1 : Codec P1) (p p' : MPath P0 P1) rest rest',
  roundtrips c0 any -> roundtrips c1 any -> fits (mp_odd p) -> fits (mp_even p) -> fits (mp_odd p') -> fits (mp_even p') -> length (mp_selected p) = length (mp_selected p') ->
  mpath_enc c0 c1 p ++ rest = mpath_enc c0 c1 p' ++ rest' -> p = p' /\ rest = rest'.
Proof.
  intros F0 F1 P0 P1 c0 c1 [s o e] [s' o' e'] rest rest' H0 H1. unfold mpath_enc. cbn [mp_selected mp_odd mp_even]. intros Ho He Ho' He' Hl E. rewrite <- !app_assoc in E.
  pose proof (f_equal (seq_dec c0 (length s)) E) as Es. rewrite seq_roundtrip in Es by exact H0. rewrite Hl in Es. rewrite seq_roundtrip in Es by exact H0. apply Some_inj in Es. apply pair_inj in Es. destruct Es as [Es1 Es2].
  pose proof (f_equal (c_dec (vec_codec c1)) Es2) as Eo. rewrite (vec_roundtrip c1 H1 o _ Ho), (vec_roundtrip c1 H1 o' _ Ho') in Eo. apply Some_inj in Eo. pose proof (f_equal fst Eo) as Eo1. pose proof (f_equal snd Eo) as Eo2. cbn [fst snd] in Eo1, Eo2.
  pose proof (f_equal (c_dec (vec_codec c0)) Eo2) as Ee. rewrite (vec_roundtrip c0 H0 e _ He), (vec_roundtrip c0 H0 e' _ He') in Ee. apply Some_inj in Ee. pose proof (f_equal fst Ee) as Ee1. pose proof (f_equal snd Ee) as Ee2. cbn [fst snd] in Ee1, Ee2. subst. split; reflexivity.
Qed.

(** ** C58: announced sizes *)
Section Size.
  Context {F : Field} {V : VSpace F} (cP : Codec V) (cS : Codec F) (kP kS : nat).
  Hypotheses (HP : measured cP any) (HS : measured cS any) (FP : fixed_length cP kP) (FS : fixed_length cS kS).
  Lemma seq_fixed l : length (seq_enc cP l) = length l * kP.
  Proof. induction l as [|a l IH]; [reflexivity|]. unfold seq_enc in *. cbn [map concat length]. rewrite app_length, IH, FP. lia. Qed.
  Lemma vec_length l : length (c_enc (vec_codec cP) l) = 8 + length l * kP.
  Proof. cbn [vec_codec c_enc]. rewrite app_length, le_bytes_length, seq_fixed. reflexivity. Qed.
  Lemma ipp_length p : length (c_enc (ipp_codec cP cS) p) = 16 + (length (ipp_L p) + length (ipp_R p)) * kP + 2 * kS.
  Proof. cbn [ipp_codec c_enc]. rewrite !app_length, !vec_length, !FS. lia. Qed.
  Lemma ipp_size p : c_size (ipp_codec cP cS) p = 16 + 2 * length (ipp_L p) * kP + 2 * kS.
  Proof. cbn [ipp_codec c_size]. rewrite HS by exact I. rewrite (vec_measured cP HP _ I), vec_length, FS. lia. Qed.
  Lemma proof_length p : length (c_enc (proof_codec cP cS) p) = (if missing_phase2 p then 3 else 6) * kP + 1 + 8 + length (pT p) * kP + 3 * kS + length (c_enc (ipp_codec cP cS) (pipp p)).
  Proof. cbn [proof_codec c_enc]. rewrite !app_length, vec_length, !FS, !FP. unfold phase2_enc. destruct (missing_phase2 p); cbn [length]; rewrite ?app_length, ?FP; lia. Qed.
  Lemma proof_size p : c_size (proof_codec cP cS) p = (if missing_phase2 p then 3 else 6) * kP + 1 + 8 + length (pT p) * kP + 3 * kS + c_size (ipp_codec cP cS) (pipp p).
  Proof. change (c_size (proof_codec cP cS) p) with ((if missing_phase2 p then 3 else 6) * c_size cP (A_I1 p) + c_size (vec_codec cP) (pT p) + 3 * c_size cS (pt_x p) + c_size (ipp_codec cP cS) (pipp p) + 1).
    rewrite HP, HS by exact I. rewrite (vec_measured cP HP _ I), vec_length, FS, FP. lia. Qed.
End Size.
(** The size of a proof is right exactly when its L and R lists have the same length. *)
Theorem C58_proof_partial : forall (F : Field) (V : VSpace F) (cP : Codec V) (cS : Codec F) kP kS, measured cP any -> measured cS any -> fixed_length cP kP -> fixed_length cS kS -> 0 < kP ->
  (forall p, c_size (ipp_codec cP cS) p = length (c_enc (ipp_codec cP cS) p) <-> length (ipp_L p) = length (ipp_R p)) /\
  (forall p, c_size (proof_codec cP cS) p = length (proof_to_bytes cP cS p) <-> length (ipp_L (pipp p)) = length (ipp_R (pipp p))).
Proof.
  intros F V cP cS kP kS HP HS FP FS Hk.
  assert (Hi : forall p, c_size (ipp_codec cP cS) p = length (c_enc (ipp_codec cP cS) p) <-> length (ipp_L p) = length (ipp_R p)).
  { intros p. rewrite (ipp_length cP cS kP kS), (ipp_size cP cS kP kS) by assumption. split; nia. }
  split; [exact Hi|]. intros p. rewrite <- Hi. unfold proof_to_bytes. rewrite (proof_length cP cS kP kS), (proof_size cP cS kP kS) by assumption. lia.
Qed.
(** Paths, multi-paths and transactions always; pours if both proofs are well formed. *)
Theorem C58_rest : forall (F0 F1 : PField) (P0 : SWCurve F1 F0) (P1 : SWCurve F0 F1) (FC : Field) (C : VSpace FC)
    (c0 : Codec P0) (c1 : Codec P1) (s0 : Codec F0) (s1 : Codec F1) (cC : Codec C) (sC : Codec FC) k0 k1 l0 l1,
  measured c0 any -> measured c1 any -> measured s0 any -> measured s1 any -> measured cC any -> measured sC any ->
  fixed_length c0 k0 -> fixed_length c1 k1 -> fixed_length s0 l0 -> fixed_length s1 l1 ->
  measured (path_codec c0 c1) any /\ (forall p : MPath P0 P1, mpath_size c0 c1 p = length (mpath_enc c0 c1 p)) /\ measured (tx_codec sC) any /\
  measured (pour_codec c0 c1 s0 s1 cC) (fun p => length (ipp_L (pipp (po_even p))) = length (ipp_R (pipp (po_even p))) /\ length (ipp_L (pipp (po_odd p))) = length (ipp_R (pipp (po_odd p)))).
Proof.
  intros F0 F1 P0 P1 FC C c0 c1 s0 s1 cC sC k0 k1 l0 l1 H0 H1 Hs0 Hs1 HC HsC K0 K1 L0 L1.
  assert (Hp : measured (path_codec c0 c1) any). { intros p _. cbn [path_codec c_enc c_size]. rewrite !app_length, H0 by exact I. rewrite !vec_measured by (assumption || exact I). lia. }
  split; [exact Hp|]. split; [|split].
  - intros p. unfold mpath_size, mpath_enc. rewrite !app_length. rewrite !vec_measured by (assumption || exact I). rewrite seq_measured by exact H0. lia.
  - intros t _. assert (Hb : measured bytes_codec any) by (apply vec_measured; intros b _; reflexivity).
    change (c_size bytes_codec (tx_pour t) + c_size sC (tx_resp0 t) + c_size sC (tx_chal0 t) + c_size sC (tx_resp1 t) + c_size sC (tx_chal1 t)
      = length (c_enc sC (tx_resp0 t) ++ c_enc sC (tx_chal0 t) ++ c_enc sC (tx_resp1 t) ++ c_enc sC (tx_chal1 t) ++ c_enc bytes_codec (tx_pour t))).
    rewrite !app_length, !(HsC _ I), (Hb _ I). lia.
  - intros p [He Ho]. change (c_size (pour_codec c0 c1 s0 s1 cC) p) with (c_size (proof_codec c0 s0) (po_even p) + c_size (proof_codec c1 s1) (po_odd p)
              + c_size (path_codec c0 c1) (po_path0 p) + c_size (path_codec c0 c1) (po_path1 p) + c_size cC (po_pk0 p) + c_size cC (po_pk1 p) + c_size c0 (po_minted0 p) + c_size c0 (po_minted1 p)).
    change (c_enc (pour_codec c0 c1 s0 s1 cC) p) with (c_enc (proof_codec c0 s0) (po_even p) ++ c_enc (proof_codec c1 s1) (po_odd p)
              ++ c_enc (path_codec c0 c1) (po_path0 p) ++ c_enc (path_codec c0 c1) (po_path1 p) ++ c_enc cC (po_pk0 p) ++ c_enc cC (po_pk1 p) ++ c_enc c0 (po_minted0 p) ++ c_enc c0 (po_minted1 p)).
    rewrite !app_length, !(Hp _ I), !(HC _ I), !(H0 _ I).
    rewrite (proof_size c0 s0 k0 l0), (proof_size c1 s1 k1 l1), (proof_length c0 s0 k0 l0), (proof_length c1 s1 k1 l1), !(ipp_size _ _ _ _ H0 Hs0 K0 L0), !(ipp_length _ _ _ _ K0 L0),
      (ipp_size _ _ _ _ H1 Hs1 K1 L1), (ipp_length _ _ _ _ K1 L1) by assumption. nia.
Qed.
(** A proof that can be decoded and whose announced size is wrong. *)
Theorem C58_unequal_refuted : forall (F : Field) (V : VSpace F) (cP : Codec V) (cS : Codec F) kP kS, measured cP any -> measured cS any -> fixed_length cP kP -> fixed_length cS kS -> 0 < kP ->
  roundtrips cP any -> roundtrips cS any ->
  exists p bs, c_dec (proof_codec cP cS) bs = Some (p, []) /\ bs = proof_to_bytes cP cS p /\ c_size (proof_codec cP cS) p < length bs.
Proof.
  intros F V cP cS kP kS HP HS FP FS Hk RP RS. set (p := mkProof v0 v0 v0 v0 v0 v0 [] f0 f0 f0 (mkIPP [] [v0] f0 f0) : R1CSProof V).
  exists p, (proof_to_bytes cP cS p). split; [|split; [reflexivity|]].
  - unfold proof_to_bytes. rewrite <- (app_nil_r (c_enc _ _)). apply proof_roundtrip; try assumption. repeat split; cbn; lia.
  - unfold proof_to_bytes. rewrite (proof_length cP cS kP kS), (proof_size cP cS kP kS), (ipp_size cP cS kP kS), (ipp_length cP cS kP kS) by assumption. cbn [p pipp ipp_L ipp_R length]. lia.
Qed.

(** ** C16: which byte strings decode to a given proof *)
(** With canonical encodings of points and scalars, two byte strings decode to the same proof and
    rest only if they differ in the phase flag, or in spelling out second-phase points that
    are all the identity. *)
Theorem C16_decode_partial : forall (F : Field) (V : VSpace F) (cP : Codec V) (cS : Codec F), canonical cP -> canonical cS ->
  forall bs p rest, is_bytes bs -> c_dec (proof_codec cP cS) bs = Some (p, rest) ->
  let front := c_enc cP (A_I1 p) ++ c_enc cP (A_O1 p) ++ c_enc cP (S1 p) in
  let back := c_enc (vec_codec cP) (pT p) ++ c_enc cS (pt_x p) ++ c_enc cS (pt_x_blinding p) ++ c_enc cS (pe_blinding p) ++ c_enc (ipp_codec cP cS) (pipp p) in
  (exists flag, flag <> 1%N /\ A_I2 p = v0 /\ A_O2 p = v0 /\ S2 p = v0 /\ bs = front ++ [flag] ++ back ++ rest) \/
  bs = front ++ [1%N] ++ c_enc cP (A_I2 p) ++ c_enc cP (A_O2 p) ++ c_enc cP (S2 p) ++ back ++ rest.
Proof.
  intros F V cP cS HP HS bs p rest Hb E. cbn [proof_codec c_dec] in E.
  assert (Tail : forall a b r, is_bytes (a ++ b) -> b = r -> is_bytes r). { intros a b r H <-. apply Forall_app in H. apply H. }
  destruct (c_dec cP bs) as [[ai1 b1]|] eqn:D1; [|discriminate E]. cbn [opt_bind] in E. apply HP in D1. subst bs. apply Forall_app in Hb. destruct Hb as [_ Hb].
  destruct (c_dec cP b1) as [[ao1 b2]|] eqn:D2; [|discriminate E]. cbn [opt_bind] in E. apply HP in D2. subst b1. apply Forall_app in Hb. destruct Hb as [_ Hb].
  destruct (c_dec cP b2) as [[s1 b3]|] eqn:D3; [|discriminate E]. cbn [opt_bind] in E. apply HP in D3. subst b2. apply Forall_app in Hb. destruct Hb as [_ Hb].
  destruct (phase2_dec cP b3) as [[[[ai2 ao2] s2] b4]|] eqn:D4; [|discriminate E]. cbn [opt_bind] in E.
  assert (D4' : is_bytes b4 /\ ((exists flag, flag <> 1%N /\ ai2 = v0 /\ ao2 = v0 /\ s2 = v0 /\ b3 = [flag] ++ b4) \/ b3 = [1%N] ++ c_enc cP ai2 ++ c_enc cP ao2 ++ c_enc cP s2 ++ b4)).
  { unfold phase2_dec in D4. destruct b3 as [|flag b3]; [discriminate D4|]. cbn [u8_dec opt_bind] in D4. inversion_clear Hb as [|x y _ Hb']. unfold TWO_PHASE_COMMITMENTS in D4. destruct (N.eqb_spec flag 1%N) as [->|Hf].
    - destruct (c_dec cP b3) as [[x1 c1]|] eqn:G1; [|discriminate D4]. cbn [opt_bind] in D4. apply HP in G1. subst b3. apply Forall_app in Hb'. destruct Hb' as [_ Hb'].
      destruct (c_dec cP c1) as [[x2 c2]|] eqn:G2; [|discriminate D4]. cbn [opt_bind] in D4. apply HP in G2. subst c1. apply Forall_app in Hb'. destruct Hb' as [_ Hb'].
      destruct (c_dec cP c2) as [[x3 c3]|] eqn:G3; [|discriminate D4]. cbn [opt_bind] in D4. apply HP in G3. subst c2. apply Forall_app in Hb'. destruct Hb' as [_ Hb'].
      apply Some_inj in D4. injection D4 as <- <- <- <-. split; [exact Hb'|]. right. reflexivity.
    - apply Some_inj in D4. injection D4 as <- <- <- <-. split; [exact Hb'|]. left. exists flag. repeat split; auto. }
  clear D4 Hb. destruct D4' as [Hb D4].
  destruct (c_dec (vec_codec cP) b4) as [[T b5]|] eqn:D5; [|discriminate E]. cbn [opt_bind] in E. apply vec_canonical in D5; [|exact HP|exact Hb]. destruct D5 as [-> _]. apply Forall_app in Hb. destruct Hb as [_ Hb].
  destruct (c_dec cS b5) as [[tx b6]|] eqn:D6; [|discriminate E]. cbn [opt_bind] in E. apply HS in D6. subst b5. apply Forall_app in Hb. destruct Hb as [_ Hb].
  destruct (c_dec cS b6) as [[txb b7]|] eqn:D7; [|discriminate E]. cbn [opt_bind] in E. apply HS in D7. subst b6. apply Forall_app in Hb. destruct Hb as [_ Hb].
  destruct (c_dec cS b7) as [[eb b8]|] eqn:D8; [|discriminate E]. cbn [opt_bind] in E. apply HS in D8. subst b7. apply Forall_app in Hb. destruct Hb as [_ Hb].
  destruct (c_dec (ipp_codec cP cS) b8) as [[ipp b9]|] eqn:D9; [|discriminate E]. cbn [opt_bind] in E. apply Some_inj in E. apply pair_inj in E. destruct E as [<- <-].
  assert (D9' : b8 = c_enc (ipp_codec cP cS) ipp ++ b9).
  { cbn [ipp_codec c_dec] in D9. destruct (c_dec (vec_codec cP) b8) as [[l c1]|] eqn:G1; [|discriminate D9]. cbn [opt_bind] in D9. apply vec_canonical in G1; [|exact HP|exact Hb]. destruct G1 as [-> _]. apply Forall_app in Hb. destruct Hb as [_ Hb].
    destruct (c_dec (vec_codec cP) c1) as [[r c2]|] eqn:G2; [|discriminate D9]. cbn [opt_bind] in D9. apply vec_canonical in G2; [|exact HP|exact Hb]. destruct G2 as [-> _].
    destruct (c_dec cS c2) as [[a c3]|] eqn:G3; [|discriminate D9]. cbn [opt_bind] in D9. apply HS in G3. subst c2. destruct (c_dec cS c3) as [[b c4]|] eqn:G4; [|discriminate D9]. cbn [opt_bind] in D9. apply HS in G4. subst c3.
    apply Some_inj in D9. apply pair_inj in D9. destruct D9 as [<- <-]. cbn [ipp_codec c_enc ipp_L ipp_R ipp_a ipp_b]. rewrite <- !app_assoc. reflexivity. }
  subst b8. cbn [A_I1 A_O1 S1 A_I2 A_O2 S2 pT pt_x pt_x_blinding pe_blinding pipp] in *. destruct D4 as [(flag & Hf & -> & -> & -> & ->)| ->].
  - left. exists flag. rewrite <- !app_assoc. repeat split; auto.
  - right. rewrite <- !app_assoc. reflexivity.
Qed.
(** Every such byte string does decode: a one-phase proof has 255 further encodings by changing
    the flag, one more by spelling out the identity, and any trailing bytes are accepted by
    [from_bytes]. *)
Theorem C16_encodings_refuted : forall (F : Field) (V : VSpace F) (cP : Codec V) (cS : Codec F) (p : R1CSProof V), roundtrips cP any -> roundtrips cS any -> proof_fits p ->
  A_I2 p = v0 -> A_O2 p = v0 -> S2 p = v0 ->
  let front := c_enc cP (A_I1 p) ++ c_enc cP (A_O1 p) ++ c_enc cP (S1 p) in
  let back := c_enc (vec_codec cP) (pT p) ++ c_enc cS (pt_x p) ++ c_enc cS (pt_x_blinding p) ++ c_enc cS (pe_blinding p) ++ c_enc (ipp_codec cP cS) (pipp p) in
  (forall flag junk, flag <> 1%N -> proof_from_bytes cP cS (front ++ [flag] ++ back ++ junk) = Ok p) /\
  (forall junk, proof_from_bytes cP cS (front ++ [1%N] ++ c_enc cP v0 ++ c_enc cP v0 ++ c_enc cP v0 ++ back ++ junk) = Ok p) /\
  proof_to_bytes cP cS p = front ++ [0%N] ++ back.
Proof.
  intros F V cP cS p HP HS (HT & HL & HR) E1 E2 E3 front back.
  assert (Gen : forall ph junk, phase2_dec cP (ph ++ back ++ junk) = Some (v0, v0, v0, back ++ junk) -> proof_from_bytes cP cS (front ++ ph ++ back ++ junk) = Ok p).
  { intros ph junk D. unfold proof_from_bytes, front. cbn [proof_codec c_dec]. rewrite <- !app_assoc. do 3 (rewrite HP by exact I; cbn [opt_bind]). rewrite D. cbn [opt_bind]. unfold back. rewrite <- !app_assoc.
    rewrite (vec_roundtrip cP HP _ _ HT). cbn [opt_bind]. do 3 (rewrite HS by exact I; cbn [opt_bind]). rewrite (ipp_roundtrip cP cS HP HS) by (split; assumption). cbn [opt_bind]. f_equal. rewrite <- E1 at 1. rewrite <- E2 at 1. rewrite <- E3. destruct p; reflexivity. }
  split; [|split].
  - intros flag junk Hf. apply Gen. unfold phase2_dec. cbn [app u8_dec opt_bind]. unfold TWO_PHASE_COMMITMENTS. apply N.eqb_neq in Hf. rewrite Hf. reflexivity.
  - intros junk. pose proof (Gen ([1%N] ++ c_enc cP v0 ++ c_enc cP v0 ++ c_enc cP v0) junk) as G. rewrite <- !app_assoc in G. apply G. clear G. unfold phase2_dec. cbn [app u8_dec opt_bind]. unfold TWO_PHASE_COMMITMENTS. cbn [N.eqb Pos.eqb]. do 3 (rewrite HP by exact I; cbn [opt_bind]). reflexivity.
  - unfold proof_to_bytes, front, back. cbn [proof_codec c_enc]. unfold phase2_enc, missing_phase2. rewrite E1, E2, E3. assert (Hz : veqb (v0 : V) v0 = true) by (destruct (veqb_spec _ V v0 v0); congruence). rewrite Hz. cbn [andb]. rewrite <- !app_assoc. reflexivity.
Qed.

(** ** Concrete cases *)
(** One byte per element of a small prime field; bytes from the modulus on are refused. *)
Section ToyCodec.
  Variable p : PrimeMod.
  (* test data or vocabulary of statements, no code modelled *)
  Definition fp_codec : Codec (Fp p) := mkCodec (fun x => [Z.to_N (zv (p:=p) x)])
    (fun bs => match bs with b :: r => if (Z.of_N b <? p)%Z then Some (fp_mk (p:=p) (Z.of_N b), r) else None | [] => None end) (fun _ => 1).
  Lemma fp_codec_roundtrips : roundtrips fp_codec any.
  Proof.
    intros x rest _. cbn [fp_codec c_enc c_dec app]. pose proof (zv_range p x) as Hr. rewrite Z2N.id by lia. replace (zv (p:=p) x <? p)%Z with true by (symmetry; apply Z.ltb_lt; lia).
    rewrite fp_mk_zv. reflexivity.
  Qed.
  Lemma fp_codec_canonical : canonical fp_codec.
  Proof.
    intros bs a rest. cbn [fp_codec c_enc c_dec]. destruct bs as [|b r]; [discriminate|]. destruct (Z.ltb_spec (Z.of_N b) p) as [Hb|Hb]; [|discriminate]. intros E. apply Some_inj in E. apply pair_inj in E. destruct E as [<- <-].
    rewrite zv_mk, Z.mod_small by lia. rewrite N2Z.id. reflexivity.
  Qed.
  Lemma fp_codec_measured : measured fp_codec any. Proof. intros x _. reflexivity. Qed.
  Lemma fp_codec_fixed : fixed_length fp_codec 1. Proof. intros x. reflexivity. Qed.
End ToyCodec.
(* test data or vocabulary of statements, no code modelled *)
Definition cod163 := fp_codec PM163.
(* test data or vocabulary of statements, no code modelled *)
Definition cod139 := fp_codec PM139.
(* test data or vocabulary of statements, no code modelled *)
Definition cP0 : Codec TC0 := cod163.
(* test data or vocabulary of statements, no code modelled *)
Definition cS0 : Codec PF163 := cod163.
(* test data or vocabulary of statements, no code modelled *)
Definition cP1 : Codec TC1 := cod139.
(* test data or vocabulary of statements, no code modelled *)
Definition cS1 : Codec PF139 := cod139.
(** A proof over the toy curve; [two] chooses whether it has second-phase points. *)
Definition toy_proof (two : bool) : R1CSProof TC0 :=
  let m z := fp_mk (p:=PM163) (Z.of_nat z) in
  mkProof (V := TC0) (m 1) (m 2) (m 3) (m (if two then 4 else 0)) (m 0) (m 0) [m 5; m 6; m 7] (m 8) (m 9) (m 10) (mkIPP (V := TC0) [m 11; m 12] [m 13; m 14] (m 15) (m 16)).
Example C57_hypotheses : roundtrips cP0 any /\ roundtrips cS0 any /\ proof_fits (toy_proof true) /\ canonical cod163 /\ measured cod163 any /\ fixed_length cod163 1 /\ roundtrips cod139 any.
Proof. repeat split; try apply fp_codec_roundtrips; try apply fp_codec_canonical; try apply fp_codec_measured; try apply fp_codec_fixed; cbn; lia. Qed.
Example C57_bytes : proof_to_bytes cP0 cS0 (toy_proof true) =
    [1; 2; 3; 1; 4; 0; 0; 3; 0; 0; 0; 0; 0; 0; 0; 5; 6; 7; 8; 9; 10; 2; 0; 0; 0; 0; 0; 0; 0; 11; 12; 2; 0; 0; 0; 0; 0; 0; 0; 13; 14; 15; 16]%N /\
  proof_to_bytes cP0 cS0 (toy_proof false) = [1; 2; 3; 0; 3; 0; 0; 0; 0; 0; 0; 0; 5; 6; 7; 8; 9; 10; 2; 0; 0; 0; 0; 0; 0; 0; 11; 12; 2; 0; 0; 0; 0; 0; 0; 0; 13; 14; 15; 16]%N.
Proof. split; vm_compute; reflexivity. Qed.
Example C58_sizes : c_size (proof_codec cP0 cS0) (toy_proof true) = 43 /\ c_size (proof_codec cP0 cS0) (toy_proof false) = 40.
Proof. split; vm_compute; reflexivity. Qed.
(** A one-phase proof encoded with flag 77. *)
Example C16_flag_77 : proof_from_bytes cP0 cS0 ([1; 2; 3; 77; 3; 0; 0; 0; 0; 0; 0; 0; 5; 6; 7; 8; 9; 10; 2; 0; 0; 0; 0; 0; 0; 0; 11; 12; 2; 0; 0; 0; 0; 0; 0; 0; 13; 14; 15; 16; 200; 200]%N) = Ok (toy_proof false).
Proof.
  assert (H : proof_fits (toy_proof false)) by (repeat split; cbn; lia).
  pose proof (C16_encodings_refuted PF163 TC0 cP0 cS0 (toy_proof false) (fp_codec_roundtrips _) (fp_codec_roundtrips _) H eq_refl eq_refl eq_refl) as C. cbn zeta in C. destruct C as [C _].
  rewrite <- (C 77%N [200; 200]%N) by lia. f_equal.
Qed.
(** A pour and a transaction made of such pieces (keys on the odd toy curve). *)
Definition toy_path : Path TC0 TC1 := mkPath (P0 := TC0) (P1 := TC1) (fp_mk (p:=PM163) 21%Z) [fp_mk (p:=PM139) 22%Z; fp_mk (p:=PM139) 23%Z] [fp_mk (p:=PM163) 24%Z].
(* test data or vocabulary of statements, no code modelled *)
Definition toy_odd_proof : R1CSProof TC1 := let m z := fp_mk (p:=PM139) (Z.of_nat z) in mkProof (V := TC1) (m 1) (m 2) (m 3) (m 0) (m 0) (m 0) [m 5] (m 8) (m 9) (m 10) (mkIPP (V := TC1) [m 11] [m 13] (m 15) (m 16)).
(* test data or vocabulary of statements, no code modelled *)
Definition toy_pour : Pour TC0 TC1 TC1 := mkPour (P0 := TC0) (P1 := TC1) (C := TC1) (toy_proof true) toy_odd_proof toy_path toy_path (fp_mk (p:=PM139) 31%Z) (fp_mk (p:=PM139) 32%Z) (fp_mk (p:=PM163) 33%Z) (fp_mk (p:=PM163) 34%Z).
Example C57_pour_fits : pour_fits toy_pour. Proof. repeat split; cbn; lia. Qed.
Example C57_pour_bytes : length (c_enc (pour_codec (FC := PF139) (C := TC1) cP0 cP1 cS0 cS1 cP1) toy_pour) = 123 /\
  c_size (pour_codec (FC := PF139) (C := TC1) cP0 cP1 cS0 cS1 cP1) toy_pour = 123.
Proof. split; vm_compute; reflexivity. Qed.

Print Assumptions C57_proof.
Print Assumptions C57_path.
Print Assumptions C57_transaction.
Print Assumptions C57_multipath_injective.
Print Assumptions C58_proof_partial.
Print Assumptions C58_rest.
Print Assumptions C58_unequal_refuted.
Print Assumptions C16_decode_partial.
Print Assumptions C16_encodings_refuted.
