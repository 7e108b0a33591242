(** * What the documentation promises about the source of a block

    documentation/user: "Only if it is not available in another cache, the data
    will be fetched from the file." *)
From Verif Require Export FetchModel.

Section Spec.
Context (c : fcfg).

(** Slot [i] of the cache of domain [d] on rank [r] holds block [b]. *)
Definition in_slot (s : fstate) (r d i b : nat) : Prop :=
  r < fc_ranks c /\ d < fc_doms c /\ i < fc_size c /\ m_at (c_i2b (fs_list s r d)) i = Some (Some b).

Definition holds_block (s : fstate) (r d b : nat) : Prop := exists i, in_slot s r d i b.

(** No more than four caches hold the block. *)
Definition few_holders (s : fstate) (b : nat) : Prop :=
  exists l, length l <= 4 /\ forall r d, holds_block s r d b -> In (r, d) l.

(** A request of an existing domain; [rand()] returns something. *)
Definition req_ok (q : freq) : Prop :=
  let '(r, d, b, rnds) := q in r < fc_ranks c /\ d < fc_doms c /\ rnds <> [].

Definition req_rank (q : freq) : nat := fst (fst (fst q)).
Definition req_dom (q : freq) : nat := snd (fst (fst q)).
Definition req_block (q : freq) : nat := snd (fst q).

(** What a source means in the state before the read. *)
Definition source_true (s : fstate) (q : freq) (x : source) : Prop :=
  match x with
  | SHit => holds_block s (req_rank q) (req_dom q) (req_block q)
  | SNuma k => k <> req_dom q /\ holds_block s (req_rank q) k (req_block q)
  | SMpi r off => exists d i, (r, d) <> (req_rank q, req_dom q) /\
      in_slot s r d i (req_block q) /\ off = i + fc_size c * d
  | SFile => True
  end.

(** The blocks a cache is asked for. *)
Definition asked (r d : nat) (qs : list freq) : list nat :=
  map req_block (filter (fun q => ((req_rank q =? r) && (req_dom q =? d))%bool) qs).
End Spec.
