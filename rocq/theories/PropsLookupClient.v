(** * C87: a table lookup from end to end *)
From Verif Require Import LookupClient ShuffleProofs CSProofs CSLogic CSMore UtilProofs GadgetProofs R1CSSpec R1CSProofs R1CSMain R1CSVerif R1CSMore R1CSTotal Lockstep SelSim CircuitSize PropsGadgets PropsR1CS PropsShuffle Toy.
Local Open Scope F_scope.

Section Look.
  Context {F : Field} {V : VSpace F} (E : TrEnv V) (pc : PedersenGens V) (g : BPGens V).
  Add Field FFlook : (f_th F).
  Let tr0 := test_transcript "Lookup".

  Lemma lookup_circuit_same u v xy d : simg eq (lookup_circuit (F := F) u v (Some xy) (Some d)) (lookup_circuit u v None None).
  Proof.
    unfold lookup_circuit, palloc. cbn [option_map]. constructor. intros xv. constructor. intros yv. eapply simg_bind; [apply lookup_same|].
    intros r r' <-. destruct r as [[|a [|b [|? ?]]]|e]; repeat constructor.
  Qed.
  Lemma uses_lookup_circuit (u v : list F) : uses (lookup_circuit u v None None) 14.
  Proof.
    unfold lookup_circuit. change 14%nat with (1 + (1 + (12 + 0)))%nat. apply uses_palloc. intros xv. apply uses_palloc. intros yv. apply uses_bind.
    - intros [[|a [|b [|? ?]]]|e]; exact I || reflexivity.
    - unfold lookup. change 12%nat with ((8 + 2 * length [u; v]) + 0)%nat. apply uses_bind; [intros a; reflexivity|apply uses_lookup].
  Qed.
  Lemma two_allocs_p (x y : F) (k : Var -> Var -> Prog F unit) : exists s2, gates_inv s2 /\ p_var s2 (MulL 0) = Some x /\ p_var s2 (MulR 0) = Some y /\ p_pend s2 = None /\
    prun E (palloc (Some x) (fun xv => palloc (Some y) (fun yv => k xv yv))) (p_new tr0) = prun E (k (MulL 0) (MulR 0)) s2.
  Proof.
    eexists. split; [|split; [|split; [|split; [|reflexivity]]]]; try reflexivity. split; [reflexivity|]. split; [reflexivity|]. split; [intros [|[|i]]; cbn; ring|discriminate].
  Qed.
  Lemma two_allocs_v (k : Var -> Var -> Prog F unit) : exists t2 : VState V, vrun E (palloc None (fun xv => palloc None (fun yv => k xv yv))) (v_new tr0) = vrun E (k (MulL 0) (MulR 0)) t2.
  Proof. eexists. reflexivity. Qed.
  (** The circuit after its two allocations: relations/src/lookup.rs 171-173, 184-186. *)
  Definition lookup_rest (u v : list F) (index : option nat) (x_var y_var : Var) : Prog F unit :=
    pbind (lookup [u; v] index) (fun r =>
      match r with
      | Ok [x_lc; y_lc] => PConstrain (lc_sub x_lc (lc_var x_var)) (PConstrain (lc_sub y_lc (lc_var y_var)) (PRet tt))
      | _ => PPanic
      end).
  Lemma lookup_circuit_rest u v xy index : lookup_circuit u v xy index = palloc (option_map fst xy) (fun xv => palloc (option_map snd xy) (fun yv => lookup_rest u v index xv yv)).
  Proof. reflexivity. Qed.
  Lemma lookup_honest u v d : (d < 8)%nat -> exists s, prun E (lookup_circuit u v (Some (row_at u d, row_at v d)) (Some d)) (p_new tr0) = Some (s, tt) /\ honest s /\ p_def s = [] /\ p_vec s = [] /\
    p_asg s (MulL 0) = row_at u d /\ p_asg s (MulR 0) = row_at v d.
  Proof.
    intros Hd. assert (Hh : honest (p_new (F := F) tr0)) by (split; [apply p_new_inv|constructor]).
    destruct (wpc_sound (n := 0) E (lookup_circuit u v (Some (row_at u d, row_at v d)) (Some d)) (fun _ _ _ => True) (p_new tr0) (issued (p_new tr0)) Hh (ok_sub_refl _)) as (s & [] & ok' & R & Hh' & _ & (_ & _ & Hvec & Hdef) & _ & _).
    { intros w Hw. pose proof (agrees_one w _ Hw) as w1. unfold lookup_circuit, palloc. cbn [option_map wpc fst snd]. intros xv Hx yv Hy. apply wpc_bind. apply lookup_complete; [exact w1|left; left; apply issued_one|exact Hd|].
      intros ok' rs Hs Hok Hv. destruct rs as [|a [|b [|? ?]]]; try discriminate Hv. cbn [map] in Hv. injection Hv as Ha Hb. apply Forall_cons_iff in Hok as [Oa Hok]. apply Forall_inv in Hok.
      cbn [wpc]. split; [apply lc_ok_sub_lc; [exact Oa|apply lc_ok_var, Hs; left; apply ok_add_in]|]. split; [rewrite lc_val_sub, lc_val_var, Ha, Hx; ring|].
      split; [apply lc_ok_sub_lc; [exact Hok|apply lc_ok_var, Hs, ok_add_in]|]. split; [rewrite lc_val_sub, lc_val_var, Hb, Hy; ring|exact I]. }
    exists s. split; [exact R|]. split; [exact Hh'|]. split; [exact Hdef|]. split; [exact Hvec|].
    rewrite lookup_circuit_rest in R. cbn [option_map fst snd] in R.
    destruct (two_allocs_p (row_at u d) (row_at v d) (lookup_rest u v (Some d))) as (s2 & G2 & HL & HR & Hpend & Eq). rewrite Eq in R.
    destruct (prun_inv E _ _ _ _ G2 R) as [_ He].
    split; (rewrite (ext_asg _ _ _ He); [unfold p_asg; rewrite ?HL, ?HR; reflexivity|split; congruence]).
  Qed.
  Lemma lookup_session u v d : (d < 8)%nat -> exists s t, prun E (lookup_circuit u v (Some (row_at u d, row_at v d)) (Some d)) (p_new tr0) = Some (s, tt) /\ honest s /\ p_def s = [] /\
    p_asg s (MulL 0) = row_at u d /\ p_asg s (MulR 0) = row_at v d /\ lookup_statement E u v = Some t /\
    vrun E (lookup_circuit u v None None) (v_new tr0) = Some (t, tt) /\ session E pc g tr0 s t /\ v_size t = 7%nat /\ v_vec t = [].
  Proof.
    intros Hd. destruct (lookup_honest u v d Hd) as (s & R & Hh & Hdef & Hv & HL & HR).
    assert (S0 : session E pc g tr0 (p_new tr0) (v_new tr0)) by apply ses_new. destruct (session_agree E pc g tr0 _ _ S0) as [Hg Ha].
    pose proof (simg_same _ _ (lookup_circuit_same u v (row_at u d, row_at v d) d)) as Hsg.
    destruct (lockstep_prun E pc g _ _ _ _ s tt Hsg Hg Ha R) as (t & Rv & Hag).
    pose proof (ses_gadget _ _ _ _ _ _ _ _ _ _ _ _ _ S0 Hsg R Rv) as Hs.
    pose proof (vrun_uses E _ _ _ _ _ (uses_lookup_circuit u v) Rv) as Hn. apply fresh_num in Hn. change ((14 + 1) / 2)%nat with 7%nat in Hn.
    assert (Hvec : v_vec t = []).
    { destruct (session_size E pc g _ s t Hs) as [_ El]. rewrite Hv in El. unfold dims in El. rewrite map_length in El. destruct (v_vec t); [reflexivity|discriminate El]. }
    exists s, t. repeat (split; [assumption|]). split; [unfold lookup_statement; fold tr0; rewrite Rv; reflexivity|]. split; [exact Rv|]. split; [exact Hs|]. split; [|exact Hvec].
    unfold v_size. rewrite Hvec, Hn. reflexivity.
  Qed.
  Lemma lookup_prove_eq dbg rnd u v d s : (d < 8)%nat -> prun E (lookup_circuit u v (Some (row_at u d, row_at v d)) (Some d)) (p_new tr0) = Some (s, tt) ->
    lookup_prove E dbg rnd pc g u v d = dor r <- r1cs_prove E dbg rnd pc g s; Some (Ok (fst r)).
  Proof. intros Hd R. unfold lookup_prove, table_lookup, guard. apply Nat.ltb_lt in Hd. rewrite Hd. cbn [opt_bind map nth]. fold tr0. rewrite R. reflexivity. Qed.
End Look.

(** For every table and every index below eight the prover of the test makes a proof, and the
    verifier accepts it.  Seven multipliers are used: eight generators are enough, and with fewer
    the prover returns an error. *)
Theorem C87_lookup_complete : forall (F : Field) (V : VSpace F) (E : TrEnv V) pc g dbg rnd (u v : list F) index,
  gens_wf g -> (gens_capacity g < 2 ^ 32)%nat -> (forall tr lb, exists c tr', challenge_scalar E tr lb = Some (c, tr') /\ c <> 0) -> (index < 8)%nat ->
  ((8 <= gens_capacity g)%nat -> exists pf, lookup_prove E dbg rnd pc g u v index = Some (Ok pf) /\
    (Forall (fun P => P <> v0) (validated_points (op_degree_of 0) pf) -> forall dbg' rr, lookup_verify E dbg' rr pf pc g u v = Some (Ok tt))) /\
  ((gens_capacity g < 8)%nat -> lookup_prove E dbg rnd pc g u v index = Some (Err InvalidGeneratorsLength)).
Proof.
  intros F V E pc g dbg rnd u v d Hw Hc Hch Hd. destruct (lookup_session E pc g u v d Hd) as (s & t & R & Hh & Hdef & _ & _ & Hst & _ & Hs & Hsz & Hvec).
  destruct (capacity_exact E pc g dbg rnd _ s t 7 Hs Hh Hdef Hw Hch) as [Hok Herr]; [unfold dims; rewrite Hvec; cbn; lia|exact Hsz|].
  rewrite (lookup_prove_eq E pc g dbg rnd u v d s Hd R). change (next_power_of_two 7) with 8%nat in Hok, Herr. split.
  - intros Hcap. destruct (Hok Hcap) as (pf & trf & Hp). exists pf. split; [rewrite Hp; reflexivity|].
    intros Hnz dbg' rr. unfold lookup_verify. rewrite Hst. cbn [opt_bind]. eapply C08_complete; try eassumption; [apply honest_satisfies, Hh|].
    destruct (session_size E pc g _ s t Hs) as [_ El]. unfold dims in El. rewrite Hvec in El. cbn in El. rewrite El. exact Hnz.
  - intros Hcap. rewrite (Herr Hcap). reflexivity.
Qed.
Print Assumptions C87_lookup_complete.

(** An index of eight or more makes the prover panic. *)
Theorem C87_lookup_index : forall (F : Field) (V : VSpace F) (E : TrEnv V) pc g dbg rnd (u v : list F) index,
  (8 <= index)%nat -> lookup_prove E dbg rnd pc g u v index = None.
Proof. intros F V E pc g dbg rnd u v d Hd. unfold lookup_prove, table_lookup, guard. apply Nat.ltb_ge in Hd. rewrite Hd. reflexivity. Qed.
Print Assumptions C87_lookup_index.

(** What the circuit of the verifier says: the two allocated values are a column of the table.
    Each column can be assigned, so no proof tells which one it is about. *)
Theorem C87_lookup_circuit : forall (F : Field) (V : VSpace F) (E : TrEnv V) (u v : list F), exists t, lookup_statement E u v = Some t /\
  forall x y, (exists w, satisfies w (v_cs t) /\ w (MulL 0) = x /\ w (MulR 0) = y) <-> (exists d, (d < 8)%nat /\ x = nth d u 0 /\ y = nth d v 0).
Proof.
  intros F V E u v. destruct (lookup_session E (mkPC v0 v0) (mkBP 0 0 [] []) u v 0 ltac:(lia)) as (s0 & t & _ & _ & _ & _ & _ & Hst & Rv & _). exists t. split; [exact Hst|]. intros x y. split.
  - intros (w & Hs & Hx & Hy). rewrite lookup_circuit_rest in Rv. cbn [option_map] in Rv.
    destruct (two_allocs_v E (lookup_rest u v None)) as (t1 & Eq). rewrite Eq in Rv.
    apply (wps_sound E (lookup_rest u v None (MulL 0) (MulR 0)) w (fun _ => exists d, (d < 8)%nat /\ x = nth d u 0 /\ y = nth d v 0) t1 t tt); [|exact Rv|exact Hs].
    unfold lookup_rest.
    intros w1 _. apply wps_bind. eapply wps_mono; [|apply (lookup_sound w w1)]. intros r (rs & d & -> & Hd & Hm).
    destruct rs as [|a [|b [|? ?]]]; try discriminate Hm. cbn [map] in Hm. injection Hm as Ha Hb. cbn [wps]. intros C1 C2. exists d. split; [exact Hd|].
    rewrite lc_val_sub, lc_val_var in C1, C2. apply (proj1 (fsub_0_iff _ _)) in C1, C2. split; [rewrite <- Hx, <- C1; exact Ha|rewrite <- Hy, <- C2; exact Hb].
  - intros (d & Hd & -> & ->). destruct (lookup_session E (mkPC v0 v0) (mkBP 0 0 [] []) u v d Hd) as (s & t' & R & Hh & _ & HL & HR & Hst' & _ & Hs & _).
    rewrite Hst in Hst'. apply Some_inj in Hst' as <-. exists (p_asg s). split; [|split; [exact HL|exact HR]].
    destruct (session_agree _ _ _ _ _ _ Hs) as [_ Ha]. rewrite <- (ag_cs _ _ _ _ Ha). apply honest_satisfies, Hh.
Qed.
Print Assumptions C87_lookup_circuit.

(** ** Examples *)
(* test data, no code modelled *)
Definition look_u : list F101 := map z101 [4; 9; 6; 3; 50; 61; 72; 83]%Z.
(* test data, no code modelled *)
Definition look_v : list F101 := map z101 [14; 29; 36; 43; 5; 6; 7; 8]%Z.
(* test helper, no code modelled: are the points not at infinity, and the verdicts for the table and for another one *)
Definition look_run (d : nat) : option (bool * option (Res unit) * option (Res unit)) :=
  match lookup_prove sh_env true rnd101 pc101 g101 look_u look_v d with
  | Some (Ok pf) => Some (forallb (fun P => negb (veqb P v0)) (validated_points (op_degree_of 0) pf), lookup_verify sh_env true (z101 7) pf pc101 g101 look_u look_v, lookup_verify sh_env true (z101 7) pf pc101 g101 look_u look_u)
  | _ => None
  end.
(** The hypotheses are met; the proof for the index 7 is accepted for its table, and refused for another one. *)
Example C87_demo : gens_wf g101 /\ (8 <= gens_capacity g101 < 2 ^ 32)%nat /\
  (forall tr lb, exists c tr', challenge_scalar sh_env tr lb = Some (c, tr') /\ c <> 0) /\ look_run 7 = Some (true, Some (Ok tt), Some (Err VerificationError)) /\
  table_lookup [look_u; look_v] 7 = Some [z101 83; z101 8].
Proof.
  split; [apply gens_wf_new|]. split; [split; [apply Nat.leb_le; vm_compute; reflexivity|apply (Nat.lt_le_trans _ (2 ^ 8)); [apply Nat.ltb_lt; vm_compute; reflexivity|apply Nat.pow_le_mono_r; lia]]|].
  split; [intros tr lb; apply const_env_good; apply feqb_false; vm_compute; reflexivity|]. split; vm_compute; reflexivity.
Qed.
