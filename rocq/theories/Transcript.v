(** * Model of bulletproofs/src/transcript.rs

    A Merlin transcript is the list (oldest first) of what has been absorbed and
    squeezed; the sponge itself is a parameter [challenge_bytes]. *)

From Verif Require Export Util Group.
From Coq Require Export String Ascii.
From Coq Require Export List.
Open Scope list_scope.
Local Open Scope nat_scope.

(** Byte strings; every element is meant to be below 256. *)
Definition bytes := list N.

(** byte-string literals [b"..."] (Rust language) *)
Definition str_bytes (s : string) : bytes :=
  map (fun a => N_of_ascii a) (list_ascii_of_string s).

(** [k] little-endian bytes of [n] ([merlin]'s [append_u64] uses 8). *)
Fixpoint le_bytes (k : nat) (n : N) : bytes :=
  match k with O => [] | S k' => (n mod 256)%N :: le_bytes k' (n / 256)%N end.

(** One transcript operation: [append_message(label, msg)] or
    [challenge_bytes(label, 64)]. *)
Inductive Event := Msg (label : string) (body : bytes) | Chal (label : string).
(** merlin's transcript: the operations so far *)
Definition Transcript := list Event.

(** errors.rs 117-150 [R1CSError]; the [GadgetError] payload is dropped. *)
Inductive R1CSError :=
  InvalidGeneratorsLength | FormatError | VerificationError | MissingAssignment | GadgetError.
(** [Result<A, R1CSError>] *)
Inductive Res (A : Type) := Ok (a : A) | Err (e : R1CSError).
Arguments Ok {A} _.
Arguments Err {A} _.

Section Transcript.
  Context {F : Field} {V : VSpace F}.

  (** What the transcript code takes from its environment: point and scalar
      encodings ([serialize_compressed]), the Merlin sponge, SHA3-256 and
      [Field::from_random_bytes]. *)
  Record TrEnv := mkTrEnv {
    enc_point : V -> bytes;
    enc_scalar : F -> bytes;
    challenge_bytes : Transcript -> string -> bytes;
    sha3_256 : bytes -> bytes;
    from_random_bytes : bytes -> option F
  }.

  Variable E : TrEnv.

  (** merlin [append_message] *)
  Definition append_message (t : Transcript) (label : string) (m : bytes) : Transcript :=
    t ++ [Msg label m].
  (** merlin [append_u64] *)
  Definition append_u64 (t : Transcript) (label : string) (n : N) : Transcript :=
    append_message t label (le_bytes 8 n).

  (** transcript.rs 52-55 *)
  Definition innerproduct_domain_sep (t : Transcript) (n : N) : Transcript :=
    append_u64 (append_message t "dom-sep" (str_bytes "ipp v1")) "n" n.
  (** transcript.rs 57-59 *)
  Definition r1cs_domain_sep (t : Transcript) : Transcript :=
    append_message t "dom-sep" (str_bytes "r1cs v1").
  (** transcript.rs 61-63 *)
  Definition r1cs_1phase_domain_sep (t : Transcript) : Transcript :=
    append_message t "dom-sep" (str_bytes "r1cs-1phase").
  (** transcript.rs 65-67 *)
  Definition r1cs_2phase_domain_sep (t : Transcript) : Transcript :=
    append_message t "dom-sep" (str_bytes "r1cs-2phase").
  (** transcript.rs 69-71 *)
  Definition append_scalar (t : Transcript) (label : string) (x : F) : Transcript :=
    append_message t label (enc_scalar E x).
  (** transcript.rs 73-79 (serialisation to a [Vec] does not fail) *)
  Definition append_point (t : Transcript) (label : string) (p : V) : Transcript :=
    append_message t label (enc_point E p).
  (** transcript.rs 81-96: the identity is rejected with an error. *)
  Definition validate_and_append_point (t : Transcript) (label : string) (p : V) : Res Transcript :=
    if veqb p v0 then Err VerificationError else Ok (append_point t label p).

  (** transcript.rs 98-117: at most 256 attempts [sha3(bytes || i)]; panics if
      none decodes to a scalar. *)
  Fixpoint first_scalar (seed : bytes) (i : N) (tries : nat) : option F :=
    match tries with
    | O => None
    | S k => match from_random_bytes E (sha3_256 E (seed ++ [i])) with
             | Some x => Some x
             | None => first_scalar seed (i + 1)%N k
             end
    end.
  (** transcript.rs 97-117 [challenge_scalar] *)
  Definition challenge_scalar (t : Transcript) (label : string) : option (F * Transcript) :=
    let seed := challenge_bytes E t label in
    match first_scalar seed 0 256 with
    | Some x => Some (x, t ++ [Chal label])
    | None => None
    end.
End Transcript.
Arguments TrEnv {F} V.
