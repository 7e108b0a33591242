(** * C50, C51, C52: dictionary of the distributed cache *)
From Verif Require Import DictFacts.

(** C50.  [live os []] lists the locations which were added and not deleted since,
    most recent first; [legal]: a location is not added again while it is
    live.  The array then is a subsequence of that list followed by empty
    places. *)
Theorem C50_dictionary_entry :
  forall os, legal os [] ->
  exists l, drun dict_init os = Ok (map Some l ++ repeat None (4 - length l)) /\
    length l <= 4 /\ NoDup l /\ subseq l (live os []) /\
    (forall r, exists x count, fetch_block_info (map Some l ++ repeat None (4 - length l)) r = Ok (x, count) /\
       count = length l /\ (x = None <-> l = []) /\ (forall e, x = Some e -> In e l)) /\
    (forall e, exists rest, drun dict_init (os ++ [DAdd e]) = Ok (Some e :: rest)) /\
    (forall r e, exists rest, drun dict_init (os ++ [DFetchAdd r e]) = Ok (Some e :: rest)).
Proof. exact dictionary_spec. Qed.
Print Assumptions C50_dictionary_entry.

Example C50_example :
  legal [DAdd 3; DFetchAdd 7 9; DDel 3; DAdd 3; DAdd 1] [] /\
  drun dict_init [DAdd 3; DFetchAdd 7 9; DDel 3; DAdd 3; DAdd 1] = Ok [Some 1; Some 3; Some 9; None].
Proof. split; [cbn; intuition discriminate|reflexivity]. Qed.

(** Why [legal] is needed: a location added twice survives its deletion. *)
Example C50_double_add : drun dict_init [DAdd 5; DAdd 5; DDel 5] = Ok [Some 5; None; None; None].
Proof. reflexivity. Qed.

(** C51 is false: deleting a location which was pushed out earlier removes the
    oldest other location. *)
Theorem C51_delete_refuted :
  exists os e x d d', legal os [] /\ drun dict_init os = Ok d /\ delete_block_info d e = Ok d' /\
    x <> e /\ In (Some x) d /\ ~ In (Some x) d'.
Proof. exact delete_refuted. Qed.
Print Assumptions C51_delete_refuted.

(** It holds for locations which are still recorded. *)
Theorem C51_delete_partial :
  forall os d e, legal os [] -> drun dict_init os = Ok d -> In (Some e) d ->
  exists d', delete_block_info d e = Ok d' /\ ~ In (Some e) d' /\
    forall x, x <> e -> In (Some x) d' <-> In (Some x) d.
Proof. exact delete_present. Qed.
Print Assumptions C51_delete_partial.

Example C51_example :
  legal [DAdd 3; DAdd 9; DAdd 1] [] /\ drun dict_init [DAdd 3; DAdd 9; DAdd 1] = Ok [Some 1; Some 9; Some 3; None] /\
  delete_block_info [Some 1; Some 9; Some 3; None] 9 = Ok [Some 1; Some 3; None; None].
Proof. split; [cbn; intuition discriminate|split; reflexivity]. Qed.

(** C52.  [n] slots per domain, [D] domains, [P] ranks, [T] threads, [dicts]
    dictionary entries per rank; the hypotheses say that the products fit into
    the C++ types used. *)
Local Open Scope Z_scope.
Theorem C52_encodings :
  forall n D P T dicts,
  0 < n -> 0 < D -> n * D < 2 ^ 32 -> P * (n * D) <= 2 ^ 63 -> 0 < T -> P * T <= 2 ^ 32 ->
  dicts * (n * D) <= 2 ^ 64 ->
  (forall rank domain slot, 0 <= rank < P -> 0 <= domain < D -> 0 <= slot < n ->
     let e := enc_entry (rank_cache_size n D) rank (node_slot n domain slot) in
     0 <= e /\
     dec_entry (rank_cache_size n D) e = (rank, node_slot n domain slot) /\
     node_slot n domain slot / n = domain /\ node_slot n domain slot mod n = slot) /\
  (forall dictOff domain slot, 0 <= dictOff < dicts -> 0 <= domain < D -> 0 <= slot < n ->
     dec_msg (rank_cache_size n D) (enc_msg (rank_cache_size n D) dictOff (node_slot n domain slot))
     = (dictOff, node_slot n domain slot)) /\
  (forall rank thread, 0 <= rank < P -> 0 <= thread < T ->
     0 <= lock_id T rank thread /\ dec_lock T (lock_id T rank thread) = (rank, thread)).
Proof. exact encodings. Qed.
Print Assumptions C52_encodings.

Example C52_example :
  0 < 128 /\ 0 < 2 /\ 128 * 2 < 2 ^ 32 /\ 1000 * (128 * 2) <= 2 ^ 63 /\ 0 < 16 /\ 1000 * 16 <= 2 ^ 32 /\
  10 ^ 9 * (128 * 2) <= 2 ^ 64 /\
  enc_entry (rank_cache_size 128 2) 7 (node_slot 128 1 5) = 7 * 256 + 133.
Proof. vm_compute. intuition discriminate. Qed.
