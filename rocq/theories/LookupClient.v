(** * The user of [lookup] in its test

    relations/src/lookup.rs 77-84, 130-190: a table of two rows, from the index to the proof and
    to the decision of the verifier, who has no input but the table.  A panic is [None].  The
    index (7) and the number of generators (1024) of the code are arguments. *)
From Verif Require Export Clients Gadgets.
Local Open Scope F_scope.

Section LookupClient.
  Context {F : Field} {V : VSpace F}.
  Variable E : TrEnv V.

  (** lookup.rs 79-83 [Lookup3Bit::lookup]: panics for indices of eight and more *)
  Definition table_lookup (table : list (list F)) (index : nat) : option (list F) :=
    guard (index <? 8)%nat (Some (map (fun row => row_at row index) table)).
  (** lookup.rs 169-173, 182-186: the circuit of both sides *)
  Definition lookup_circuit (u v : list F) (xy : option (F * F)) (index : option nat) : Prog F unit :=
    palloc (option_map fst xy) (fun x_var => palloc (option_map snd xy) (fun y_var =>
      pbind (lookup [u; v] index) (fun r =>
        match r with
        | Ok [x_lc; y_lc] => PConstrain (lc_sub x_lc (lc_var x_var)) (PConstrain (lc_sub y_lc (lc_var y_var)) (PRet tt))
        | _ => PPanic
        end))).
  (** lookup.rs 162-176: the prover.  The code unwraps the result of [prove]. *)
  Definition lookup_prove (dbg : bool) (rnd : PRand F) (pc : PedersenGens V) (g : BPGens V) (u v : list F) (index : nat) : option (Res (R1CSProof V)) :=
    do xy <- table_lookup [u; v] index;
    do (s, _) <- prun E (lookup_circuit u v (Some (nth 0 xy 0, nth 1 xy 0)) (Some index)) (p_new (test_transcript "Lookup"));
    dor r <- r1cs_prove E dbg rnd pc g s; Some (Ok (fst r)).
  (** lookup.rs 179-186: the circuit of the verifier *)
  Definition lookup_statement (u v : list F) : option (VState V) :=
    do (t, _) <- vrun E (lookup_circuit u v None None) (v_new (test_transcript "Lookup")); Some t.
  (** lookup.rs 179-187: the verifier *)
  Definition lookup_verify (dbg : bool) (rr : F) (pf : R1CSProof V) (pc : PedersenGens V) (g : BPGens V) (u v : list F) : option (Res unit) :=
    do t <- lookup_statement u v; r1cs_verify E dbg rr pf pc g t.
End LookupClient.
