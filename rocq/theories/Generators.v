(** * Model of bulletproofs/src/generators.rs *)

From Verif Require Export Transcript.
Local Open Scope nat_scope.

Section Generators.
  Context {F : Field} {V : VSpace F}.

  (** generators.rs 29-34 [PedersenGens] *)
  Record PedersenGens := mkPC { pcB : V; pcB_blinding : V }.

  (** generators.rs 36-41 [PedersenGens::commit] *)
  Definition pc_commit (pc : PedersenGens) (value blinding : F) : V :=
    msm [value; blinding] [pcB pc; pcB_blinding pc].

  (** util.rs 316-330 [affine_from_bytes_tai]: hash-and-increment, at most 256
      attempts, then panic.  [sha] and [from_bytes] are the environment's
      SHA3-256 and [C::from_random_bytes]. *)
  Fixpoint first_point (sha : bytes -> bytes) (from_bytes : bytes -> option V)
           (data : bytes) (i : N) (tries : nat) : option V :=
    match tries with
    | O => None
    | S k => match from_bytes (sha (data ++ [i])) with
             | Some p => Some p
             | None => first_point sha from_bytes data (i + 1)%N k
             end
    end.
  (** util.rs 316-330: all 256 counters *)
  Definition affine_from_bytes_tai sha from_bytes (data : bytes) : option V :=
    first_point sha from_bytes data 0 256.

  (** generators.rs 59-107 [GeneratorsChain]: the chain of [label] is the
      sequence of points hashed from consecutive 64-byte blocks of the SHAKE
      stream for that label.  [block label k] is the k-th block and [pt] hashes a
      block to a point (a panic there is not modelled: the chain is a total
      sequence [chain label]).  [fast_forward n] skips [n] blocks; [take m]
      reads [m]. *)
  Variable chain : bytes -> nat -> V.
  (** generators.rs 59-107: skip, then take *)
  Definition chain_take_from (label : bytes) (skip count : nat) : list V :=
    map (chain label) (seq skip count).

  (** generators.rs 136-145 [BulletproofGens] *)
  Record BPGens := mkBP {
    gens_capacity : nat; party_capacity : nat; G_vec : list (list V); H_vec : list (list V) }.

  (** generators.rs 190-192, 199: the label is a letter and the little-endian u32 of the party. *)
  Definition gens_label (letter : N) (party : nat) : bytes :=
    letter :: le_bytes 4 (N.of_nat party mod 2 ^ 32)%N.

  (** generators.rs 183-208 [increase_capacity]; the vectors have
      [party_capacity] rows by construction, so [G_vec[i]] does not panic. *)
  Definition increase_capacity (g : BPGens) (new_capacity : nat) : BPGens :=
    if new_capacity <=? gens_capacity g then g
    else
      let extend (letter : N) (rows : list (list V)) :=
        map (fun '(i, row) => row ++ chain_take_from (gens_label letter i) (gens_capacity g)
                                       (new_capacity - gens_capacity g))
            (combine (seq 0 (party_capacity g)) rows) in
      mkBP new_capacity (party_capacity g) (extend 71%N (G_vec g)) (extend 72%N (H_vec g)).

  (** generators.rs 161-170 [BulletproofGens::new] *)
  Definition bp_new (gens_cap party_cap : nat) : BPGens :=
    increase_capacity (mkBP 0 party_cap (repeat [] party_cap) (repeat [] party_cap)) gens_cap.

  (** generators.rs 174-179, 283-290 [share(j).G(n)] / [.H(n)]: [G_vec[j]] panics
      if there is no such party; [take] never panics. *)
  Definition share_G (g : BPGens) (j n : nat) : option (list V) :=
    option_map (firstn n) (nth_error (G_vec g) j).
  (** generators.rs 174-179, 283-290: [share(j).H(n)] *)
  Definition share_H (g : BPGens) (j n : nat) : option (list V) :=
    option_map (firstn n) (nth_error (H_vec g) j).

  (** generators.rs 233-263 [AggregatedGensIter::next]: state is
      (party_idx, gen_idx).  Outer [None] is the index panic. *)
  Definition agg_next (arr : list (list V)) (n m : nat) (st : nat * nat) : option (option V * (nat * nat)) :=
    let '(party, gen) := st in
    let '(party, gen) := if n <=? gen then (party + 1, 0) else (party, gen) in
    if m <=? party then Some (None, (party, gen))
    else match nth_error arr party with
         | Some row => match nth_error row gen with
                       | Some p => Some (Some p, (party, gen + 1))
                       | None => None
                       end
         | None => None
         end.
  (** Collect the iterator; [None] = panic or out of fuel. *)
  Fixpoint agg_collect (fuel : nat) (arr : list (list V)) (n m : nat) (st : nat * nat) : option (list V) :=
    match fuel with
    | O => None
    | S k => match agg_next arr n m st with
             | None => None
             | Some (None, _) => Some []
             | Some (Some p, st') => option_map (cons p) (agg_collect k arr n m st')
             end
    end.
  (** generators.rs 211-230 [G(n,m)] collected (fuel is enough for n*m items
      plus the terminating call plus, for n = 0, up to m items). *)
  Definition agg_G (g : BPGens) (n m : nat) : option (list V) :=
    agg_collect (n * m + m + 1) (G_vec g) n m (0, 0).
  (** generators.rs 211-230 [H(n,m)] collected *)
  Definition agg_H (g : BPGens) (n m : nat) : option (list V) :=
    agg_collect (n * m + m + 1) (H_vec g) n m (0, 0).
End Generators.
Arguments PedersenGens {F} V.
Arguments BPGens {F} V.
