(** * The requests to the file made by the levels: the loading functions of
    LevelsModel.v together with the calls of the netCDF library they make *)
From Verif Require Export LevelsModel.

(** One call of [nc_get_varm]/[nc_get_vara]: the arguments [start] and [count],
    io/netcdfreader.h lines 245, 256, 267, 278, 289 and 301. *)
Definition request := (list nat * list nat)%type.

Section Requests.
  Context {V : Type}.

  (** [getBlock], io/netcdfreader.h lines 195-218: one call, with the offset and [actSize].
      Every branch of [getVar] makes exactly one call. *)
  Definition block_request (f : file V) (off size : list nat) : request :=
    (off, act_size (f_size f) off size).
  Definition load_log (g : geom V) (corner : list nat) (base : nat) (m : mem V)
    : outcome (mem V * list request) :=
    do m' <- load g corner base m;
    Ok (m', [block_request (g_file g) corner (b_bs (g_bl g))]).

  (** The loading loop of [Full::open], grid/level/full.h lines 106-125. *)
  Fixpoint full_load_log (g : geom V) (d : dist) (r dom base i k : nat) (m : mem V)
    : outcome (mem V * list request) :=
    match k with
    | 0 => Ok (m, [])
    | S k' =>
        let id := local2global d r dom i in
        if d_total d <=? id then Ok (m, [])
        else
          do x <- load_log g (ix_mul (calc_block_position (g_bl g) id) (b_bs (g_bl g)))
                    (base + b_tbs (g_bl g) * i) m;
          let '(m', qs) := x in
          do y <- full_load_log g d r dom base (S i) k' m';
          let '(m'', qs') := y in Ok (m'', qs ++ qs')
    end.

  (** Opening on all domains of a rank, grid/level/full.h lines 86-130. *)
  Fixpoint full_domains_log (g : geom V) (d : dist) (r dom k : nat) (m : mem V)
    : outcome (mem V * list request) :=
    match k with
    | 0 => Ok (m, [])
    | S k' =>
        do x <- full_load_log g d r dom (domain_base g d dom) 0 (local_block_count d) m;
        let '(m', qs) := x in
        do y <- full_domains_log g d r (S dom) k' m';
        let '(m'', qs') := y in Ok (m'', qs ++ qs')
    end.
  Definition full_open_log (g : geom V) (d : dist) (r : nat) : outcome (mem V * list request) :=
    full_domains_log g d r 0 (d_domains d) (mem_new V (domain_size g d * d_domains d)).

  (** [Cache::getAt], grid/level/cache.h lines 120-149, with [loadBlock], lines 157-171. *)
  Definition cache_get_log (g : geom V) (s : cache_state V) (index : list nat)
    : outcome (cache_state V * option V * list request) :=
    let b := block_by_coords (g_bl g) index in
    let off := calc_offset_in_block (g_bl g) index in
    let cnt := inc_access (cs_cnt s) in
    do r <- clist_request (cs_list s) b;
    let '(l, slot, old) := r in
    let base := slot * b_tbs (g_bl g) in
    do mc <- (if is_hit b old then Ok (cs_mem s, cnt, [])
              else do x <- load_log g (load_corner g index) base (cs_mem s);
                   let '(m, qs) := x in Ok (m, inc_file cnt, qs));
    let '(m, cnt', qs) := mc in
    do v <- mem_rd m (base + off);
    Ok (CacheState m l cnt', v, qs).

  (** A history of reads: values and the requests of each read. *)
  Fixpoint cache_run_log (g : geom V) (s : cache_state V) (ixs : list (list nat))
    : outcome (cache_state V * list (option V) * list (list request)) :=
    match ixs with
    | [] => Ok (s, [], [])
    | ix :: ixs' =>
        do r <- cache_get_log g s ix;
        let '(s', v, qs) := r in
        do r' <- cache_run_log g s' ixs';
        let '(s'', vs, logs) := r' in Ok (s'', v :: vs, qs :: logs)
    end.

  (** [PassThrough::getAt], grid/level/passthrough.h lines 105-121. *)
  Definition pass_get_log (opaque : bool) (f : file V) (m : mem V) (c : counters) (tid : nat)
      (index : list nat) : outcome (mem V * counters * option V * list request) :=
    do m' <- pass_load opaque f m tid index;
    do v <- pass_read m' tid;
    Ok (m', inc_file (inc_access c), v, [block_request f index (map (fun _ => 1) (f_size f))]).
  Fixpoint pass_seq_log (opaque : bool) (f : file V) (m : mem V) (c : counters)
      (rs : list (nat * list nat))
    : outcome (mem V * counters * list (option V) * list (list request)) :=
    match rs with
    | [] => Ok (m, c, [], [])
    | (t, ix) :: rs' =>
        do x <- pass_get_log opaque f m c t ix;
        let '(m', c', v, qs) := x in
        do y <- pass_seq_log opaque f m' c' rs';
        let '(m'', c'', vs, logs) := y in Ok (m'', c'', v :: vs, qs :: logs)
    end.
End Requests.
