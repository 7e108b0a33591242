(** * C106: when the three grid types access the file
    ([covers], [fine]: RequestFacts.v; the functions with suffix [_log] of RequestModel.v
    also return the calls of the netCDF library) *)
From Verif Require Import RequestFacts.

(** FULL, opening: the calls of all ranks together ask for every cell exactly once and for
    nothing outside of the variable. *)
Theorem C106_full_open :
  forall (V : Type) (f : file V) user td arr0 bl opaque,
  f_size f <> [] -> blocked_open (f_size f) user td arr0 = Ok bl ->
  forall d, 0 < d_ranks d -> 0 < d_domains d -> d_total d = b_total bl ->
  exists logs : nat -> list request,
    (forall r, r < d_ranks d -> exists m, full_open (Geom bl f opaque) d r = Ok m /\
                                          full_open_log (Geom bl f opaque) d r = Ok (m, logs r)) /\
    let all := flat_map logs (seq 0 (d_ranks d)) in
    Forall (fine (f_size f)) all /\
    (forall ix, in_box (f_size f) ix -> length (filter (fun q => covers q ix) all) = 1) /\
    length all = b_total bl.
Proof. exact (fun V => @full_requests_facts V). Qed.
Print Assumptions C106_full_open.

(** FULL, reading: the reads return the values of the opened file [f] whatever the file
    contains by then ([f'] is any file), on one process ... *)
Theorem C106_full_reads :
  forall (V : Type) (f f' : file V) user td arr0 bl opaque opaque' mode,
  f_size f <> [] -> blocked_open (f_size f) user td arr0 = Ok bl ->
  let g := Geom bl f opaque in
  let d := Dist mode 1 1 (b_total bl) in
  exists m, full_open g d 0 = Ok m /\
    forall ixs, Forall (in_box (f_size f)) ixs ->
      exists c, full_run (Geom bl f' opaque') d (domain_base g d 0) m counters0 ixs
                = Ok (c, map (fun ix => Some (f_val f ix)) ixs) /\ n_file c = 0.
Proof. exact (fun V => @full_single_facts V). Qed.
Print Assumptions C106_full_reads.

(** ... and distributed over ranks and domains. *)
Theorem C106_full_dist_reads :
  forall (V : Type) (f f' : file V) user td arr0 bl opaque opaque' mode P D p mp n spread,
  f_size f <> [] -> blocked_open (f_size f) user td arr0 = Ok bl ->
  0 < P -> 0 < D -> 0 < n -> (spread < Z.of_nat n)%Z ->
  (mp = PMpiNo -> p <> PNumaNo /\ P = 1) ->
  let d := Dist mode P D (b_total bl) in
  exists s, fd_open (Geom bl f opaque) d n spread = Ok s /\
    forall rs, Forall (fun '(r, dom, ix) => r < P /\ dom < D /\ in_box (f_size f) ix) rs ->
      exists s', fd_run p mp (Geom bl f' opaque') d s rs
                 = Ok (s', map (fun '(_, _, ix) => Some (f_val f ix)) rs) /\
        forall r dom, n_file (fd_cnt s' r dom) = 0.
Proof. exact (fun V => @full_reads_facts V). Qed.
Print Assumptions C106_full_dist_reads.

(** CACHE: empty after opening; a read makes no call or one, for exactly the cells of its
    block; the first read of a block makes one; the next read of the same block makes none;
    as long as no more blocks are used than fit, each block is asked for once only. *)
Theorem C106_cache :
  forall (V : Type) (f : file V) user td arr0 bl opaque,
  f_size f <> [] -> blocked_open (f_size f) user td arr0 = Ok bl ->
  forall n spread, 0 < n -> (spread < Z.of_nat n)%Z ->
  exists s0, cache_open (Geom bl f opaque) n spread = Ok s0 /\ cached (cs_list s0) = [] /\
    n_file (cs_cnt s0) = 0 /\
    forall ixs, Forall (in_box (f_size f)) ixs ->
      let blk := block_by_coords bl in
      exists s' logs,
        cache_run (Geom bl f opaque) s0 ixs = Ok (s', map (fun ix => Some (f_val f ix)) ixs) /\
        cache_run_log (Geom bl f opaque) s0 ixs
          = Ok (s', map (fun ix => Some (f_val f ix)) ixs, logs) /\
        length logs = length ixs /\
        n_file (cs_cnt s') = length (concat logs) /\
        (forall j ix, nth_error ixs j = Some ix ->
           nth_error logs j = Some [] \/
           exists q, nth_error logs j = Some [q] /\ fine (f_size f) q /\
             forall jx, in_box (f_size f) jx -> (covers q jx = true <-> blk jx = blk ix)) /\
        (forall j ix, nth_error ixs j = Some ix -> nth_error logs j = Some [] ->
           In (blk ix) (map blk (firstn j ixs))) /\
        (forall j ix ix', nth_error ixs j = Some ix -> nth_error ixs (S j) = Some ix' ->
           blk ix = blk ix' -> nth_error logs (S j) = Some []) /\
        (length (nodup Nat.eq_dec (map blk ixs)) <= n ->
         forall j ix, nth_error ixs j = Some ix ->
           (nth_error logs j = Some [] <-> In (blk ix) (map blk (firstn j ixs)))).
Proof. exact (fun V => @cache_requests_facts V). Qed.
Print Assumptions C106_cache.

(** PASS-THROUGH: every read makes exactly one call, for exactly its cell. *)
Theorem C106_pass :
  forall (V : Type) opaque (f : file V) threads rs,
  f_size f <> [] -> Forall (fun '(t, ix) => t < threads /\ in_box (f_size f) ix) rs ->
  exists m' c logs,
    pass_seq opaque f (pass_open threads) counters0 rs =
      Ok (m', c, map (fun '(_, ix) => Some (f_val f ix)) rs) /\
    pass_seq_log opaque f (pass_open threads) counters0 rs =
      Ok (m', c, map (fun '(_, ix) => Some (f_val f ix)) rs, logs) /\
    length logs = length rs /\ n_file c = length (concat logs) /\
    forall j t ix, nth_error rs j = Some (t, ix) ->
      exists q, nth_error logs j = Some [q] /\ fine (f_size f) q /\
        forall jx, covers q jx = true <-> jx = ix.
Proof. exact (fun V => @pass_requests_facts V). Qed.
Print Assumptions C106_pass.

(** A 5x7 variable in blocks of 2x4. *)
Definition rq_file : file nat :=
  File [5; 7] (fun ix => match ix with [i; j] => 10 * i + j | _ => 999 end).
Definition rq_user (i : nat) : Z := if i =? 0 then 4%Z else 2%Z.

Example C106_example_full :
  match blocked_open (f_size rq_file) rq_user (-1) (fun _ => 0) with
  | Ok bl =>
      let d := Dist RoundRobin 2 2 (b_total bl) in
      map (fun r => match full_open_log (Geom bl rq_file false) d r with Ok (_, qs) => qs | Ub => [] end) [0; 1]
      = [ [([0; 0], [2; 4]); ([4; 0], [1; 4]); ([2; 0], [2; 4])];
          [([0; 4], [2; 3]); ([4; 4], [1; 3]); ([2; 4], [2; 3])] ]
  | Ub => False
  end.
Proof. vm_compute. reflexivity. Qed.

(** Cache with two blocks: the third block evicts the second one. *)
Example C106_example_cache :
  match blocked_open (f_size rq_file) rq_user (-1) (fun _ => 0) with
  | Ok bl =>
      let g := Geom bl rq_file false in
      match cache_open g 2 (-1) with
      | Ok s =>
          match cache_run_log g s [[0; 0]; [1; 3]; [4; 6]; [0; 1]; [2; 0]; [0; 0]; [4; 5]] with
          | Ok (_, vs, logs) =>
              (vs, logs) = ([Some 0; Some 13; Some 46; Some 1; Some 20; Some 0; Some 45],
                            [[([0; 0], [2; 4])]; []; [([4; 4], [1; 3])]; []; [([2; 0], [2; 4])];
                             []; [([4; 4], [1; 3])]])
          | Ub => False
          end
      | Ub => False
      end
  | Ub => False
  end.
Proof. vm_compute. reflexivity. Qed.

Example C106_example_pass :
  match pass_seq_log false rq_file (pass_open 2) counters0 [(0, [4; 6]); (1, [4; 6])] with
  | Ok (_, c, vs, logs) =>
      (n_file c, vs, logs) = (2, [Some 46; Some 46], [[([4; 6], [1; 1])]; [([4; 6], [1; 1])]])
  | Ub => False
  end.
Proof. vm_compute. reflexivity. Qed.
