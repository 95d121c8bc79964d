(** * Membership proofs do not reveal which leaf was selected (C65) *)
From Verif Require Import SelPath CSProofs UtilProofs Lockstep CSMore R1CSSpec R1CSProofs R1CSMain WIProofs GenProofs Toy ToyCurve PropsR1CS PropsGadgets PropsRerand PropsTree PropsSelRerand PropsHiding.
Local Open Scope F_scope.

Lemma levels_solve {F0 F1 : PField} {P1 : SWCurve F0 F1} (prm : SLParams P1) (os : nat -> F1) :
  (forall P : P1, exists k, P = vsmul k (pcB_blinding (sl_pc prm))) -> pcB_blinding (sl_pc prm) <> v0 ->
  forall (nodes nodes' : list (Wit F0 P1)) i, length nodes' = length nodes -> exists f : nat -> F1, forall os' : nat -> F1,
    imap (fun j w => rerandomized prm w (os' j)) i nodes' = imap (fun j w => rerandomized prm w (os j)) i nodes <->
    (forall k, (i <= k < i + length nodes)%nat -> os' k = f k).
Proof.
  intros Hspan HB. induction nodes as [|w nodes IH]; intros [|w' nodes'] i Hl; try discriminate Hl.
  - exists (fun _ => 0). intros os'. split; [intros _ k Hk; cbn [length] in Hk; lia|reflexivity].
  - destruct (IH nodes' (S i) (f_equal Nat.pred Hl)) as (f & Hf).
    destruct (Hspan (vsub (rerandomized prm w (os i)) (w_child w'))) as (c & Hc).
    exists (fun k => if Nat.eqb k i then c else f k). intros os'. cbn [imap length].
    assert (K : rerandomized prm w' (os' i) = rerandomized prm w (os i) <-> os' i = c).
    { rewrite <- (blind_iff (sl_pc prm) (os' i) c (rerandomized prm w (os i)) (w_child w') HB Hc). unfold rerandomized. rewrite (vadd_comm _ _ (w_child w')). reflexivity. }
    split.
    + intros H k Hk. injection H as H1 H2. destruct (Nat.eqb_spec k i) as [->|Hne]; [apply K, H1|]. apply (proj1 (Hf os') H2). lia.
    + intros H. f_equal; [apply K; specialize (H i ltac:(lia)); rewrite Nat.eqb_refl in H; exact H|]. apply Hf. intros k Hk.
      specialize (H k ltac:(lia)). destruct (Nat.eqb_spec k i); [lia|exact H].
Qed.

Lemma last_parts {A} (l l' : list A) d d' : length l = length l' -> l <> [] -> (last l d = last l' d' /\ removelast l = removelast l' <-> l = l').
Proof.
  intros Hl Hne. assert (l' <> []) by (destruct l; [contradiction|]; destruct l'; [discriminate Hl|discriminate]).
  split; [intros [H1 H2]|].
  - rewrite (app_removelast_last d Hne), (app_removelast_last d' H), H1, H2. reflexivity.
  - intros <-. split; [|reflexivity]. rewrite (app_removelast_last d Hne). rewrite !last_last. reflexivity.
Qed.

(** Which scalars make the path for another leaf look the same. *)
Lemma same_path {F0 F1 : PField} {P0 : SWCurve F1 F0} {P1 : SWCurve F0 F1} (prm : SRParams P0 P1) evens odds evens' odds' os es :
  (forall P : P0, exists k, P = vsmul k (pcB_blinding (sl_pc (even_p prm)))) -> pcB_blinding (sl_pc (even_p prm)) <> v0 ->
  (forall P : P1, exists k, P = vsmul k (pcB_blinding (sl_pc (odd_p prm)))) -> pcB_blinding (sl_pc (odd_p prm)) <> v0 ->
  length evens' = length evens -> length odds' = length odds -> odds <> [] ->
  exists (fo : nat -> F1) (fe : nat -> F0), forall os' es',
    fst (make_path prm evens' odds' os' es') = fst (make_path prm evens odds os es) <->
    (forall k, (k < length evens)%nat -> os' k = fo k) /\ (forall k, (k < length odds)%nat -> es' k = fe k).
Proof.
  intros S0 B0 S1 B1 Le Lo Hne.
  destruct (levels_solve (odd_p prm) os S1 B1 evens evens' 0 Le) as (fo & Hfo). destruct (levels_solve (even_p prm) es S0 B0 odds odds' 0 Lo) as (fe & Hfe).
  exists fo, fe. intros os' es'. unfold make_path. cbn [fst].
  assert (Lv : length (imap (fun i w => rerandomized (even_p prm) w (es' i)) 0 odds') = length (imap (fun i w => rerandomized (even_p prm) w (es i)) 0 odds)) by (rewrite !imap_length; exact Lo).
  assert (Nv : imap (fun i w => rerandomized (even_p prm) w (es' i)) 0 odds' <> []) by (intros E; rewrite E in Lv; rewrite imap_length in Lv; destruct odds; [contradiction|discriminate Lv]).
  pose proof (last_parts _ _ v0 v0 Lv Nv) as LP. split.
  - intros H. injection H as H1 H2 H3. split; intros k Hk.
    + apply (proj1 (Hfo os') H2). lia.
    + apply (proj1 (Hfe es') (proj1 LP (conj H1 H3))). lia.
  - intros [H1 H2]. destruct (proj2 LP (proj2 (Hfe es') (fun k Hk => H2 k (proj2 Hk)))) as [-> ->]. rewrite (proj2 (Hfo os') (fun k Hk => H1 k (proj2 Hk))). reflexivity.
Qed.

(** ** C65: the proof does not reveal the index *)

(** Take two positions in the same tree. For every choice of re-randomization
    scalars for the first there is exactly one choice for the second that gives
    the same path (the public part of the membership proof). If these scalars
    are admissible too (see C35, C39: the prover panics on a few scalars), the
    verifier builds the same circuits, and every pair of R1CS proofs that the
    prover makes for the first position is also made for the second by some
    random tapes, in one-to-one correspondence (C64), up to tapes whose
    challenge [x] is zero. Tree index 0 and height at least 1. *)
Theorem C65_index_hiding_partial : forall (F0 F1 : PField) (P0 : SWCurve F1 F0) (P1 : SWCurve F0 F1) (E0 : TrEnv P0) (E1 : TrEnv P1) (enc0 : P0 -> bytes) (enc1 : P1 -> bytes)
    bp0 pc0 delta0 bp1 pc1 delta1 (prm : SRParams P0 P1) (L M : nat) (set : list P0) fuel height t oc i i' evens odds evens' odds' os es,
  sl_new bp0 pc0 delta0 = Some (even_p prm) -> sl_new bp1 pc1 delta1 = Some (odd_p prm) -> sw_a P0 = 0 -> sw_a P1 = 0 ->
  from_set fuel L M prm set height = TOk t -> (N.of_nat (L ^ t_height t) < 2 ^ 64)%N -> (0 < M)%nat -> t_height t <> 0%nat ->
  tree_witness oc L t i 0 prm = Some (evens, odds) -> tree_witness oc L t i' 0 prm = Some (evens', odds') ->
  (forall P : P0, exists k, P = vsmul k (pcB_blinding pc0)) -> pcB_blinding pc0 <> v0 -> gens_wf bp0 ->
  (forall P : P1, exists k, P = vsmul k (pcB_blinding pc1)) -> pcB_blinding pc1 <> v0 -> gens_wf bp1 ->
  (forall k w, nth_error evens k = Some w -> admissible (odd_p prm) (w_child w) (os k)) -> (forall k w, nth_error odds k = Some w -> admissible (even_p prm) (w_child w) (es k)) ->
  exists os' es',
    (forall os2 es2, fst (make_path prm evens' odds' os2 es2) = fst (make_path prm evens odds os es) <->
       (forall k, (k < length evens')%nat -> os2 k = os' k) /\ (forall k, (k < length odds')%nat -> es2 k = es' k)) /\
    ((forall k w, nth_error evens' k = Some w -> admissible (odd_p prm) (w_child w) (os' k)) -> (forall k w, nth_error odds' k = Some w -> admissible (even_p prm) (w_child w) (es' k)) ->
     forall tr0 tr1 s0 s1 (t0 : VState P0) (t1 : VState P1),
     session E0 pc0 bp0 tr0 s0 t0 -> session E1 pc1 bp1 tr1 s1 t1 -> honest s0 -> honest s1 -> p_def s0 = [] -> p_def s1 = [] ->
     exists a0 a1 b0 b1 (t0' : VState P0) (t1' : VState P1) p r r',
       tree_prove E0 E1 enc0 enc1 oc L t i 0 pc0 pc1 prm os es s0 s1 = Some (a0, a1, (p, r)) /\
       tree_prove E0 E1 enc0 enc1 oc L t i' 0 pc0 pc1 prm os' es' s0 s1 = Some (b0, b1, (p, r')) /\
       (forall dbg, sr_verify E0 E1 enc0 enc1 dbg L prm t p t0 t1 = Some (t0', t1', pa_selected p)) /\
       (forall dbg, tapes_correspond E0 pc0 bp0 dbg t0' a0 b0) /\ (forall dbg, tapes_correspond E1 pc1 bp1 dbg t1' a1 b1)).
Proof.
  intros F0 F1 P0 P1 E0 E1 enc0 enc1 bp0 pc0 delta0 bp1 pc1 delta1 prm L M set fuel height t oc i i' evens odds evens' odds' os es
    Hsl0 Hsl1 Ha0 Ha1 Ht Hc HM Hh Hw Hw' S0 B0 W0 S1 B1 W1 Aos Aes.
  destruct (sl_new_good _ _ _ _ Hsl0) as (Hg0 & Eb0 & Ep0 & _), (sl_new_good _ _ _ _ Hsl1) as (Hg1 & Eb1 & Ep1 & _).
  destruct (tree_prove_opens L M prm set fuel height t oc i 0 evens odds Ht Hc HM Hw) as (leaf & root & Hleaf & Hr & Ho).
  destruct (tree_prove_opens L M prm set fuel height t oc i' 0 evens' odds' Ht Hc HM Hw') as (leaf' & root' & Hleaf' & Hr' & Ho').
  assert (root' = root) by congruence. subst root'.
  rewrite <- Eb0, <- Ep0 in *. rewrite <- Eb1, <- Ep1 in *.
  assert (HL : length evens' = length evens /\ length odds' = length odds /\ odds <> []).
  { destruct root as [c|c]; cbn [t_opens] in Ho, Ho'; destruct (opens_lengths _ _ _ _ _ _ _ _ _ _ _ _ _ Ho) as [A1 A2]; destruct (opens_lengths _ _ _ _ _ _ _ _ _ _ _ _ _ Ho') as [A3 A4];
      pose proof (opens_leaf _ _ _ _ _ _ _ _ _ _ _ _ _ Ho) as A5; cbn beta iota in A5; (split; [congruence|]; split; [congruence|]).
    - destruct A5 as (_ & [A5|(w & A5 & _)]); [contradiction|]. intros ->. destruct (length [] - 1)%nat; discriminate A5.
    - destruct A5 as (_ & w & A5 & _). intros ->. destruct (length [] - 1)%nat; discriminate A5. }
  destruct HL as (Le & Lo & Hne).
  destruct (same_path prm evens odds evens' odds' os es S0 B0 S1 B1 Le Lo Hne) as (os' & es' & Hiff).
  exists os', es'. rewrite Le, Lo. split; [exact Hiff|].
  intros Aos' Aes' tr0 tr1 s0 s1 t0 t1 Hses0 Hses1 Hh0 Hh1 Hd0 Hd1.
  destruct (sr_total E0 E1 enc0 enc1 L prm root (t_height t) evens odds leaf os es s0 s1 Hg0 Hg1 Ha0 Ha1 Ho Aos Aes Hh0 Hh1) as (a0 & a1 & p & r & Hp & Hha0 & Hha1 & _ & _ & Hda0 & Hda1).
  destruct (sr_total E0 E1 enc0 enc1 L prm root (t_height t) evens' odds' leaf' os' es' s0 s1 Hg0 Hg1 Ha0 Ha1 Ho' Aos' Aes' Hh0 Hh1) as (b0 & b1 & p' & r' & Hp' & Hhb0 & Hhb1 & _ & _ & Hdb0 & Hdb1).
  assert (p' = p) as ->.
  { assert (Q : forall ev od o e x y q z, sr_prove E0 E1 enc0 enc1 (sl_pc (even_p prm)) (sl_pc (odd_p prm)) prm ev od o e s0 s1 = Some (x, y, (q, z)) -> q = fst (make_path prm ev od o e)).
    { intros ev od o e x y q z H. unfold sr_prove in H. destruct (root_is_even ev od); [|discriminate H]. cbn [opt_bind] in H.
      destruct (prove_levels E0 _ _ s0 _); [|discriminate H]. cbn [opt_bind] in H. destruct (prove_levels E1 _ _ s1 _); [|discriminate H]. cbn [opt_bind] in H.
      apply Some_inj, pair_inj in H as [_ H]. rewrite H. reflexivity. }
    rewrite (Q _ _ _ _ _ _ _ _ Hp), (Q _ _ _ _ _ _ _ _ Hp'). apply Hiff. auto. }
  destruct (sr_lockstep E0 E1 enc0 enc1 true L prm t root (t_height t) evens odds leaf os es tr0 tr1 s0 s1 t0 t1 a0 a1 p r Hg0 Hg1 Hr Ho Hh (tree_witness_root _ _ _ _ _ _ _ _ Hw Hh) ltac:(reflexivity) Hses0 Hses1 Hp) as (t0' & t1' & Hv & Q0 & Q1 & _).
  destruct (sr_lockstep E0 E1 enc0 enc1 true L prm t root (t_height t) evens' odds' leaf' os' es' tr0 tr1 s0 s1 t0 t1 b0 b1 p r' Hg0 Hg1 Hr Ho' Hh (tree_witness_root _ _ _ _ _ _ _ _ Hw' Hh) ltac:(reflexivity) Hses0 Hses1 Hp') as (t0'' & t1'' & Hv' & Q0' & Q1' & _).
  rewrite Hv in Hv'. apply Some_inj, pair_inj in Hv' as [Hv' _]. apply pair_inj in Hv' as [<- <-].
  exists a0, a1, b0, b1, t0', t1', p, r, r'. unfold tree_prove. rewrite Hw, Hw'. cbn [opt_bind fst snd].
  split; [exact Hp|]. split; [exact Hp'|]. split.
  { intros dbg. destruct dbg; [exact Hv|]. revert Hv. unfold sr_verify. destruct (verification_commitments t p) as [q|]; [|discriminate]. cbn [opt_bind andb].
    destruct (negb _); [discriminate|]. auto. }
  split; intros dbg.
  - eapply C64_witness_indistinguishable; try eassumption; try congruence; apply honest_satisfies; assumption.
  - eapply C64_witness_indistinguishable; try eassumption; try congruence; apply honest_satisfies; assumption.
Qed.
Print Assumptions C65_index_hiding_partial.

(** ** A concrete instance: positions 3 and 0 of the toy tree of height 3 *)
(* test data, no code modelled: the scalars that show for position i' the path shown for position i *)
Definition moved0 (o o' : list (Wit PF139 TC0)) (r : nat -> PF163) (k : nat) : PF163 :=
  match nth_error o k, nth_error o' k with
  | Some w, Some w' => ((w_child w : PF163) + r k * (pcB_blinding toy_pcg : PF163) - (w_child w' : PF163)) * finv (pcB_blinding toy_pcg : PF163)
  | _, _ => 0 end.
(* test data or vocabulary of statements, no code modelled *)
Definition moved1 (o o' : list (Wit PF163 TC1)) (r : nat -> PF139) (k : nat) : PF139 :=
  match nth_error o k, nth_error o' k with
  | Some w, Some w' => ((w_child w : PF139) + r k * (pcB_blinding toy_pcg1 : PF139) - (w_child w' : PF139)) * finv (pcB_blinding toy_pcg1 : PF139)
  | _, _ => 0 end.
(* boolean equality for the tests below, no code modelled *)
Fixpoint list_eqb {A} (eqb : A -> A -> bool) (l l' : list A) : bool :=
  match l, l' with [], [] => true | x :: l, y :: l' => eqb x y && list_eqb eqb l l' | _, _ => false end.
Lemma list_eqb_true {A} (eqb : A -> A -> bool) : (forall x y, eqb x y = true -> x = y) -> forall l l', list_eqb eqb l l' = true -> l = l'.
Proof.
  intros He. induction l as [|x l IH]; intros [|y l'] H; try discriminate H; [reflexivity|]. cbn in H. apply andb_prop in H as [H1 H2]. rewrite (He _ _ H1), (IH _ H2). reflexivity.
Qed.
Lemma list_eqb_refl_veqb {F : Field} {V : VSpace F} : forall l : list V, list_eqb veqb l l = true.
Proof. induction l as [|x l IH]; [reflexivity|]. cbn. rewrite veqb_refl, IH. reflexivity. Qed.
(* boolean equality for the tests below, no code modelled *)
Definition path_eqb (p q : Path TC0 TC1) : bool :=
  veqb (pa_selected p) (pa_selected q) && list_eqb veqb (pa_odd p) (pa_odd q) && list_eqb veqb (pa_even p) (pa_even q).
Lemma path_eqb_true p q : path_eqb p q = true -> p = q.
Proof.
  unfold path_eqb. intros H. apply andb_prop in H as [H H3]. apply andb_prop in H as [H1 H2]. apply veqb_true in H1.
  apply (list_eqb_true _ (fun x y => proj1 (veqb_true x y))) in H2. apply (list_eqb_true _ (fun x y => proj1 (veqb_true x y))) in H3.
  destruct p, q. cbn in *. congruence.
Qed.
Example C65_demo : exists prm t evens odds evens' odds' os' es', sl_new big0 toy_pcg toy_delta = Some (even_p prm) /\ sl_new big1 toy_pcg1 toy_delta1 = Some (odd_p prm) /\
  from_set 6 2 2 prm toy_set None = TOk t /\ t_height t = 3%nat /\
  tree_witness true 2 t 3 0 prm = Some (evens, odds) /\ tree_witness true 2 t 0 0 prm = Some (evens', odds') /\ evens <> evens' /\
  (forall k w, nth_error evens k = Some w -> admissible (odd_p prm) (w_child w) (toy_os k)) /\ (forall k w, nth_error odds k = Some w -> admissible (even_p prm) (w_child w) (toy_es k)) /\
  (forall k w, nth_error evens' k = Some w -> admissible (odd_p prm) (w_child w) (os' k)) /\ (forall k w, nth_error odds' k = Some w -> admissible (even_p prm) (w_child w) (es' k)) /\
  fst (make_path prm evens' odds' os' es') = fst (make_path prm evens odds toy_os toy_es).
Proof.
  destruct (with_tree_spec 0 (fun prm t e o => (t_height t =? 3)%nat && adm_all (odd_p prm) toy_os e && adm_all (even_p prm) toy_es o && match tree_witness true 2 t 0 0 prm with
  | Some (e', o') => adm_all (odd_p prm) (moved1 e e' toy_os) e' && adm_all (even_p prm) (moved0 o o' toy_es) o' && negb (list_eqb veqb (map w_child e) (map w_child e')) &&
      path_eqb (fst (make_path prm e' o' (moved1 e e' toy_os) (moved0 o o' toy_es))) (fst (make_path prm e o toy_os toy_es)) | None => false end)%bool ltac:(vm_compute; reflexivity)) as (prm & t & e & o & H0 & H1 & Ht & Hw & H).
  apply andb_prop in H as [H Hr]. apply andb_prop in H as [H Ao]. apply andb_prop in H as [Eh Ae]. apply Nat.eqb_eq in Eh.
  destruct (tree_witness true 2 t 0 0 prm) as [[e' o']|] eqn:Hw'; [|discriminate Hr].
  apply andb_prop in Hr as [Hr Hp]. apply andb_prop in Hr as [Hr Hn]. apply andb_prop in Hr as [Ae' Ao']. apply path_eqb_true in Hp. apply Bool.negb_true_iff in Hn.
  exists prm, t, e, o, e', o', (moved1 e e' toy_os), (moved0 o o' toy_es).
  repeat (split; [first [exact (adm_all_spec _ _ _ Ae)|exact (adm_all_spec _ _ _ Ao)|exact (adm_all_spec _ _ _ Ae')|exact (adm_all_spec _ _ _ Ao')|assumption|
    intros <-; rewrite list_eqb_refl_veqb in Hn; discriminate Hn]|]). exact Hp.
Qed.
Lemma toy_spans : (forall P : TC0, exists k, P = vsmul k (pcB_blinding toy_pcg)) /\ pcB_blinding toy_pcg <> v0 /\ gens_wf big0 /\
  (forall P : TC1, exists k, P = vsmul k (pcB_blinding toy_pcg1)) /\ pcB_blinding toy_pcg1 <> v0 /\ gens_wf big1.
Proof.
  assert (B0 : pcB_blinding toy_pcg <> v0) by (apply (proj1 (feqb_false (F := PF163) _ _)); vm_compute; reflexivity).
  assert (B1 : pcB_blinding toy_pcg1 <> v0) by (apply (proj1 (feqb_false (F := PF139) _ _)); vm_compute; reflexivity).
  split; [exact (regv_span (F := PF163) _ B0)|]. split; [exact B0|]. split; [apply gens_wf_new|]. split; [exact (regv_span (F := PF139) _ B1)|]. split; [exact B1|apply gens_wf_new].
Qed.
