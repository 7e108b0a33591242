(** * C03-C09, C28: values and counters of all grid types *)
From Verif Require Import LevelsFacts.

(** C03.  [loads_block] (LevelsFacts.v) states the effect: right value at every
    in-range cell of the block, nothing changed outside of the block. *)
Theorem C03_load_builtin :
  forall (V : Type) (f : file V) off bs base m,
  f_size f <> [] -> in_box (f_size f) off -> length bs = length (f_size f) ->
  Forall (fun b => 0 < b) bs -> base + volume bs <= m_len m ->
  (exists m', get_block false f off bs base m = Ok m' /\ loads_block f off bs base m m') /\
  (forall k, in_box (act_size (f_size f) off bs) k -> in_box (f_size f) (ix_add off k)).
Proof. exact (fun V => @load_facts V false). Qed.
Print Assumptions C03_load_builtin.

(** A 5x7 variable whose cell (i,j) contains 10*i+j. *)
Definition demo_file : file nat :=
  File [5; 7] (fun ix => match ix with [i; j] => 10 * i + j | _ => 999 end).

Example C03_example :
  match get_block false demo_file [3; 6] [3; 2] 1 (mem_new nat 8) with
  | Ok m => map (m_at m) (seq 0 8) = [None; Some 36; None; Some 46; None; None; None; None]
  | Ub => False
  end.
Proof. vm_compute. reflexivity. Qed.

(** C04. *)
Theorem C04_load_opaque :
  forall (V : Type) (f : file V) off bs base m,
  f_size f <> [] -> in_box (f_size f) off -> length bs = length (f_size f) ->
  Forall (fun b => 0 < b) bs -> base + volume bs <= m_len m ->
  exists m1 m2, get_block true f off bs base m = Ok m1 /\ get_block false f off bs base m = Ok m2 /\
    (forall k, in_box bs k -> in_box (f_size f) (ix_add off k) ->
       m_at m1 (base + row_major bs k) = m_at m2 (base + row_major bs k) /\
       m_at m1 (base + row_major bs k) = Some (f_val f (ix_add off k))) /\
    (forall p, p < base \/ base + volume bs <= p -> m_at m1 p = m_at m p).
Proof. exact (fun V => @opaque_strided V). Qed.
Print Assumptions C04_load_opaque.

Example C04_example :
  match get_block true demo_file [3; 4] [3; 4] 0 (mem_new nat 12) with
  | Ok m => map (m_at m) [0; 1; 2; 4; 5; 6] = map (@Some nat) [34; 35; 36; 44; 45; 46]
  | Ub => False
  end.
Proof. vm_compute. reflexivity. Qed.

(** C05. *)
Theorem C05_full_value :
  forall (V : Type) (f : file V) user td arr0 bl opaque mode,
  f_size f <> [] -> blocked_open (f_size f) user td arr0 = Ok bl ->
  let g := Geom bl f opaque in
  let d := Dist mode 1 1 (b_total bl) in
  exists m, full_open g d 0 = Ok m /\
    forall ixs, Forall (in_box (f_size f)) ixs ->
      exists c, full_run g d (domain_base g d 0) m counters0 ixs
                = Ok (c, map (fun ix => Some (f_val f ix)) ixs).
Proof. exact (fun V => @full_values V). Qed.
Print Assumptions C05_full_value.

Definition demo_bl : blocked := Blocked [5; 7] [2; 3] [3; 3] 6 9.
Example demo_bl_ok : blocked_open (f_size demo_file) (fun n => nth n [3; 2]%Z 0%Z) (-1) (fun _ => 0) = Ok demo_bl.
Proof. reflexivity. Qed.

Example C05_example :
  match full_open (Geom demo_bl demo_file true) (Dist RoundRobin 1 1 9) 0 with
  | Ok m => full_run (Geom demo_bl demo_file true) (Dist RoundRobin 1 1 9) 0 m counters0
              [[4; 6]; [0; 0]; [2; 5]] = Ok (Counters 3 0 0 0, [Some 46; Some 0; Some 25])
  | Ub => False
  end.
Proof. vm_compute. reflexivity. Qed.

(** C06: all ranks, domains, transfer policies, cache sizes, histories. *)
Theorem C06_full_dist_value :
  forall (V : Type) (f : file V) user td arr0 bl opaque mode P D p mp n spread,
  f_size f <> [] -> blocked_open (f_size f) user td arr0 = Ok bl ->
  0 < P -> 0 < D -> 0 < n -> (spread < Z.of_nat n)%Z ->
  (mp = PMpiNo -> p <> PNumaNo /\ P = 1) ->
  let g := Geom bl f opaque in
  let d := Dist mode P D (b_total bl) in
  exists s, fd_open g d n spread = Ok s /\
    forall rs, Forall (fun '(r, dom, ix) => r < P /\ dom < D /\ in_box (f_size f) ix) rs ->
      exists s', fd_run p mp g d s rs = Ok (s', map (fun '(_, _, ix) => Some (f_val f ix)) rs).
Proof. exact (fun V => @fd_values V). Qed.
Print Assumptions C06_full_dist_value.

Example C06_example :
  let g := Geom demo_bl demo_file false in
  let d := Dist Contiguous 2 2 9 in
  match fd_open g d 1 0 with
  | Ok s =>
      match fd_run PNumaFullCache PMpiFull g d s
              [(0, 1, [4; 6]); (0, 0, [4; 6]); (0, 1, [0; 0]); (1, 0, [4; 5]); (0, 1, [4; 6])] with
      | Ok (s', vs) => vs = [Some 46; Some 46; Some 0; Some 45; Some 46] /\
                       fd_cnt s' 0 1 = Counters 3 2 1 0
      | Ub => False
      end
  | Ub => False
  end.
Proof. vm_compute. auto. Qed.

(** C07. *)
Theorem C07_cache_value :
  forall (V : Type) (f : file V) user td arr0 bl opaque n spread,
  f_size f <> [] -> blocked_open (f_size f) user td arr0 = Ok bl ->
  0 < n -> (spread < Z.of_nat n)%Z ->
  let g := Geom bl f opaque in
  exists s, cache_open g n spread = Ok s /\
    forall ixs, Forall (in_box (f_size f)) ixs ->
      exists s', cache_run g s ixs = Ok (s', map (fun ix => Some (f_val f ix)) ixs).
Proof. exact (fun V => @cache_values V). Qed.
Print Assumptions C07_cache_value.

Example C07_example :
  let g := Geom demo_bl demo_file true in
  match cache_open g 2 1 with
  | Ok s =>
      match cache_run g s [[4; 6]; [0; 0]; [4; 6]; [2; 5]; [0; 1]; [4; 6]] with
      | Ok (s', vs) => vs = [Some 46; Some 0; Some 46; Some 25; Some 1; Some 46] /\
                       cs_cnt s' = Counters 6 0 0 5
      | Ub => False
      end
  | Ub => False
  end.
Proof. vm_compute. auto. Qed.

(** C08: every interleaving of loads and conversions of the threads;
    [pass_expected] pairs each conversion with the position loaded last by the
    same thread. *)
Theorem C08_pass_through_value :
  forall (V : Type) opaque (f : file V) threads ops,
  f_size f <> [] ->
  Forall (fun o => pass_tid o < threads /\
                   match o with PLoad _ ix => in_box (f_size f) ix | PRead _ => True end) ops ->
  exists m', pass_run opaque f (pass_open threads) ops = Ok (m', pass_expected f (fun _ => None) ops).
Proof. exact (fun V => @pass_interleaved V). Qed.
Print Assumptions C08_pass_through_value.

(** C08, whole calls. *)
Theorem C08_pass_through_calls :
  forall (V : Type) opaque (f : file V) threads rs,
  f_size f <> [] -> Forall (fun '(t, ix) => t < threads /\ in_box (f_size f) ix) rs ->
  exists m' c, pass_seq opaque f (pass_open threads) counters0 rs =
               Ok (m', c, map (fun '(_, ix) => Some (f_val f ix)) rs).
Proof. exact (fun V => @pass_values V). Qed.
Print Assumptions C08_pass_through_calls.

Example C08_example :
  match pass_run false demo_file (pass_open 3)
          [PLoad 0 [1; 2]; PLoad 2 [4; 6]; PRead 0; PLoad 0 [0; 5]; PRead 2; PRead 0] with
  | Ok (_, vs) => vs = [(0, Some 12); (2, Some 46); (0, Some 5)]
  | Ub => False
  end.
Proof. vm_compute. reflexivity. Qed.

(** C09: the last read of any history is the file value in all grid types. *)
Theorem C09_same_answer :
  forall (V : Type) (f : file V) user td arr0 bl opaque mode P D p mp n1 sp1 n2 sp2 threads
      h1 h2 h3 h4 r dom t ix,
  f_size f <> [] -> blocked_open (f_size f) user td arr0 = Ok bl ->
  0 < P -> 0 < D -> 0 < n1 -> (sp1 < Z.of_nat n1)%Z -> 0 < n2 -> (sp2 < Z.of_nat n2)%Z ->
  (mp = PMpiNo -> p <> PNumaNo /\ P = 1) ->
  Forall (in_box (f_size f)) (h1 ++ [ix]) ->
  Forall (fun '(r, dom, ix) => r < P /\ dom < D /\ in_box (f_size f) ix) (h2 ++ [(r, dom, ix)]) ->
  Forall (in_box (f_size f)) (h3 ++ [ix]) ->
  Forall (fun '(t, ix) => t < threads /\ in_box (f_size f) ix) (h4 ++ [(t, ix)]) ->
  let g := Geom bl f opaque in
  let d1 := Dist mode 1 1 (b_total bl) in
  let d := Dist mode P D (b_total bl) in
  exists full fd cache pass v1 v2 v3 v4,
    (do m <- full_open g d1 0; full_run g d1 (domain_base g d1 0) m counters0 (h1 ++ [ix])) = Ok (full, v1) /\
    (do s <- fd_open g d n1 sp1; fd_run p mp g d s (h2 ++ [(r, dom, ix)])) = Ok (fd, v2) /\
    (do s <- cache_open g n2 sp2; cache_run g s (h3 ++ [ix])) = Ok (cache, v3) /\
    pass_seq opaque f (pass_open threads) counters0 (h4 ++ [(t, ix)]) = Ok (pass, v4) /\
    last v1 None = Some (f_val f ix) /\ last v2 None = Some (f_val f ix) /\
    last v3 None = Some (f_val f ix) /\ last v4 None = Some (f_val f ix).
Proof. exact (fun V => @same_answer V). Qed.
Print Assumptions C09_same_answer.

Example C09_example :
  f_size demo_file <> [] /\ in_box (f_size demo_file) [4; 6] /\ (0 < Z.of_nat 2)%Z.
Proof. split; [discriminate|]. split; [repeat constructor|reflexivity]. Qed.

(** C28.  The counters of each grid type are those of its reads ([reported],
    CounterProofs.v): all reads of a FULL level are local hits. *)
Theorem C28_full :
  forall (V : Type) (f : file V) user td arr0 bl opaque mode ixs,
  f_size f <> [] -> blocked_open (f_size f) user td arr0 = Ok bl ->
  Forall (in_box (f_size f)) ixs -> (Z.of_nat (length ixs) < 2 ^ 64)%Z ->
  let g := Geom bl f opaque in
  let d := Dist mode 1 1 (b_total bl) in
  exists m c vs, full_open g d 0 = Ok m /\ full_run g d (domain_base g d 0) m counters0 ixs = Ok (c, vs) /\
    reported c (repeat KHit (length ixs)).
Proof. exact (fun V => @full_counters V). Qed.
Print Assumptions C28_full.

(** Distributed FULL: [fd_kinds] says for each read of a (rank, domain) whether the block was
    local, available inside of the node, or not. *)
Theorem C28_full_dist :
  forall (V : Type) (f : file V) user td arr0 bl opaque mode P D p mp n spread rs,
  f_size f <> [] -> blocked_open (f_size f) user td arr0 = Ok bl ->
  0 < P -> 0 < D -> 0 < n -> (spread < Z.of_nat n)%Z ->
  (mp = PMpiNo -> p <> PNumaNo /\ P = 1) ->
  Forall (fun '(r, dom, ix) => r < P /\ dom < D /\ in_box (f_size f) ix) rs ->
  (Z.of_nat (length rs) < 2 ^ 64)%Z ->
  let g := Geom bl f opaque in
  let d := Dist mode P D (b_total bl) in
  exists s s' vs, fd_open g d n spread = Ok s /\ fd_run p mp g d s rs = Ok (s', vs) /\
    forall r dom,
      length (fd_kinds p mp g d s rs r dom) =
        length (filter (fun '(r', dom', _) => (r' =? r) && (dom' =? dom)) rs) /\
      reported (fd_cnt s' r dom) (fd_kinds p mp g d s rs r dom).
Proof. exact (fun V => @fd_reported V). Qed.
Print Assumptions C28_full_dist.

(** CACHE: [cache_kinds] says for each read whether the block was in the cache. *)
Theorem C28_cache :
  forall (V : Type) (f : file V) user td arr0 bl opaque n spread ixs,
  f_size f <> [] -> blocked_open (f_size f) user td arr0 = Ok bl ->
  0 < n -> (spread < Z.of_nat n)%Z ->
  Forall (in_box (f_size f)) ixs -> (Z.of_nat (length ixs) < 2 ^ 64)%Z ->
  let g := Geom bl f opaque in
  exists s s' vs, cache_open g n spread = Ok s /\ cache_run g s ixs = Ok (s', vs) /\
    length (cache_kinds g s ixs) = length ixs /\ reported (cs_cnt s') (cache_kinds g s ixs).
Proof. exact (fun V => @cache_reported V). Qed.
Print Assumptions C28_cache.

(** PASS-THROUGH: all reads are file loads. *)
Theorem C28_pass_through :
  forall (V : Type) opaque (f : file V) threads rs,
  f_size f <> [] -> Forall (fun '(t, ix) => t < threads /\ in_box (f_size f) ix) rs ->
  (Z.of_nat (length rs) < 2 ^ 64)%Z ->
  exists m' c vs, pass_seq opaque f (pass_open threads) counters0 rs = Ok (m', c, vs) /\
    reported c (repeat KFile (length rs)).
Proof. exact (fun V => @pass_reported V). Qed.
Print Assumptions C28_pass_through.

(** Whatever the kinds of the reads, the reported counters add up and
    none of them wraps. *)
Theorem C28_counters_add_up :
  forall c ks, reported c ks ->
  (counter_get c CHit + counter_get c CMiss = counter_get c CAccess /\
   counter_get c CMiss = counter_get c CNuma + counter_get c CMpi + counter_get c CFile /\
   counter_get c CNodeHit = counter_get c CHit + counter_get c CNuma /\
   forall t, 0 <= counter_get c t <= counter_get c CAccess)%Z.
Proof. exact reported_identities. Qed.
Print Assumptions C28_counters_add_up.

Example C28_example : reported (Counters 5 1 1 1) [KHit; KNuma; KMpi; KFile; KHit].
Proof. vm_compute. repeat split. Qed.
