(** * C100: the unit tests of the repository *)
From Verif Require Import SyncFacts NumaFacts NetCdfProofs UnitModel UnitFacts UnitNuma UnitComm UnitRest.

(** ** threads/synctest.h

    Without spurious wake-ups no assertion fails, whatever the threads do in which order; nothing is
    undefined, the test does not get stuck and ends. *)
Theorem C100_sync_partial : forall old value x l, In x [test_barrier; test_wait_barrier; test_broadcast] ->
  let c := ut_cfg false old x in
  u_run c (u_init c value x) l <> Some Ub /\
  forall s, u_run c (u_init c value x) l = Some (Ok s) ->
    u_ok s = true /\ length l <= 60 /\
    (u_prog s 0 <> [] \/ u_prog s 1 <> [] -> exists a s', u_step c s a = Some (Ok s')).
Proof. exact sync_tests_all. Qed.
Print Assumptions C100_sync_partial.

(** All three run to the end. *)
Definition u_end (x : utest) (l : list nat) : option (bool * bool * bool) :=
  match u_run (ut_cfg false 9 x) (u_init (ut_cfg false 9 x) 9 x) (map YStep l) with
  | Some (Ok s) => Some (match u_prog s 0 with [] => true | _ => false end, match u_prog s 1 with [] => true | _ => false end, u_ok s)
  | _ => None
  end.
Example C100_sync_demo :
  u_end test_barrier [0; 0; 1; 1; 1; 1; 1; 1; 1; 0; 0; 0; 0; 0; 0; 0; 0; 1; 1; 1; 1; 1; 1; 0; 0; 0; 0; 0; 1; 0; 0] = Some (true, true, true) /\
  u_end test_wait_barrier [1; 1; 0; 0; 0; 0; 1; 1; 1; 1; 1; 1; 0; 0; 0; 0; 0; 0; 0; 0] = Some (true, true, true) /\
  u_end test_broadcast [0; 0; 0; 1; 1; 1; 1; 1; 1; 0; 0; 0; 0; 0; 0; 0] = Some (true, true, true).
Proof. repeat split; vm_compute; reflexivity. Qed.

(** A spurious wake-up lets the first barrier return before the other thread has written [value]. *)
Theorem C100_spurious_refuted : exists l s,
  u_run (ut_cfg true 0 test_barrier) (u_init (ut_cfg true 0 test_barrier) 0 test_barrier) l = Some (Ok s) /\ u_ok s = false.
Proof. exact sync_tests_spurious. Qed.
Print Assumptions C100_spurious_refuted.

(** ** numa/numatest.h, numa/numacommtest.h *)
Theorem C100_numa_partial : forall x node ptr junk l s, ptr <> 0%Z ->
  v_run x node ptr junk v_init l = Some (Ok s) -> v_done x s 0 = true -> v_done x s 1 = true ->
  (v_ok x s = true <->
   match x with
   | VRegister => v_tid s 0 = 0
   | VAllocate => node 0 = node 1 \/ v_tid s 0 = 0
   | VCreate | VBroadcast => True
   end) /\
  (v_tid s 0 = 0 /\ v_tid s 1 = 1 \/ v_tid s 0 = 1 /\ v_tid s 1 = 0).
Proof. exact numa_tests_all. Qed.
Print Assumptions C100_numa_partial.

Definition v_end (x : vtest) (node : nat -> nat) (l : list nat) : option (bool * bool * bool) :=
  match v_run x node 7 (fun _ _ => 0%Z) v_init l with
  | Some (Ok s) => Some (v_done x s 0, v_done x s 1, v_ok x s)
  | _ => None
  end.
Example C100_numa_demo :
  v_end VRegister (fun _ => 0) [0; 0; 1; 1; 1; 1; 1; 1; 0; 0; 0; 0; 0] = Some (true, true, true) /\
  v_end VCreate (fun t => t) [1; 1; 0; 0; 0; 0; 0; 0; 1; 1; 1; 1; 1; 1; 1; 0; 0; 0; 0; 0; 0; 1; 1; 1; 1; 1] = Some (true, true, true) /\
  v_end VBroadcast (fun t => t)
    [1; 1; 0; 0; 0; 0; 0; 0; 1; 1; 1; 1; 1; 1; 1; 0; 0; 0; 1; 1; 1; 1; 1; 1; 0; 0; 0; 0; 1; 1; 0; 0; 0; 1; 1; 1; 1; 1; 0; 0; 0; 0]
    = Some (true, true, true) /\
  v_end VAllocate (fun t => t) [0; 0; 1; 1; 1; 1; 1; 1; 0; 0; 0; 0; 0; 0; 0; 1; 1; 1; 1; 1; 1; 0; 0; 0; 0; 0] = Some (true, true, true).
Proof. repeat split; vm_compute; reflexivity. Qed.

Theorem C100_numa_end_partial : forall x node ptr junk l,
  v_run x node ptr junk v_init l <> Some Ub /\
  forall s, v_run x node ptr junk v_init l = Some (Ok s) ->
    length l <= 72 /\
    (forall t, t < 2 -> v_registered s t = true -> v_part s t = true -> v_names x s t = v_names x s 0) /\
    ((exists t, t < 2 /\ v_done x s t = false) -> exists t s', v_step x node ptr junk s t = Some (Ok s')).
Proof. exact numa_tests_end. Qed.
Print Assumptions C100_numa_end_partial.

(** The thread that is created registers first. *)
Theorem C100_register_refuted : exists l s,
  v_run VRegister (fun _ => 0) 7 (fun _ _ => 0%Z) v_init l = Some (Ok s) /\
  v_done VRegister s 0 = true /\ v_done VRegister s 1 = true /\ v_ok VRegister s = false.
Proof. exact numa_register_fails. Qed.
Print Assumptions C100_register_refuted.

Theorem C100_allocate_refuted : exists l s,
  v_run VAllocate (fun t => t) 7 (fun _ _ => 0%Z) v_init l = Some (Ok s) /\
  v_done VAllocate s 0 = true /\ v_done VAllocate s 1 = true /\ v_ok VAllocate s = false.
Proof. exact numa_allocate_fails. Qed.
Print Assumptions C100_allocate_refuted.

(** ** mpi/commthread.h: any number of processes *)
Theorem C100_comm_partial : forall n l,
  w_run n w_init l <> Some Ub /\
  forall s, w_run n w_init l = Some (Ok s) ->
    w_ok s = true /\ length l <= 13 * n /\
    (forall r, r < n -> w_pos s r = 10 -> w_recv s r = 42%Z) /\
    ((exists r, r < n /\ w_pos s r < 10) -> exists a s', w_step n s a = Some (Ok s')).
Proof. exact comm_test_all. Qed.
Print Assumptions C100_comm_partial.

Example C100_comm_demo :
  option_map (fun o => match o with Ok s => (map (w_pos s) [0; 1], map (w_recv s) [0; 1], w_ok s) | Ub => ([], [], false) end)
    (w_run 2 w_init ([WMain 1; WMain 0; WMain 0; WMain 0; WMain 0; WHandle 0 0; WMain 1; WMain 1; WMain 1] ++
                     [WMain 0; WMain 1; WMain 1; WHandle 1 1; WHandle 1 1; WMain 1; WMain 1; WMain 0; WHandle 0 0] ++
                     [WMain 0; WMain 0; WHandle 0 0; WMain 0; WMain 0; WHandle 1 1; WMain 1; WMain 1]))
  = Some ([10; 10], [42; 42]%Z, true).
Proof. vm_compute. reflexivity. Qed.

(** ** cache/cachelisttest.h, cache/cachemanagertest.h: any four blocks *)
Theorem C100_cache_partial : forall a b c d, NoDup [a; b; c; d] ->
  l_test 3 (-1) (test_get_index a b c d) = Ok true /\
  l_test 3 (-1) (test_get_free a b c d) = Ok true /\
  l_test 3 (-1) (test_get a b c d) = Ok true.
Proof. exact cache_tests. Qed.
Print Assumptions C100_cache_partial.
Example C100_cache_demo : l_test 3 (-1) (test_get_free 5 6 7 8) = Ok true /\
  l_test 3 (-1) [LFree 5 0 None; LFree 6 0 None] = Ok false.
Proof. split; reflexivity. Qed.

(** ** io/netcdfreadertest.h: successful exactly for the right values in the block *)
Theorem C100_reader_partial : forall opaque H L W val off size buffer, length size = 3 ->
  in_box [H; L; W] off -> Forall (fun b => 0 < b) size -> volume size <= m_len buffer ->
  ((forall z y x, z < H -> y < L -> x < W -> val z y x = (x * L + y) * W + z) ->
     exists m, test_block opaque H L W val off size buffer = Ok (m, true)) /\
  (forall m, test_block opaque H L W val off size buffer = Ok (m, true) ->
     forall z y x, nth 0 off 0 <= z < Nat.min H (nth 0 off 0 + nth 0 size 0) ->
       nth 1 off 0 <= y < Nat.min L (nth 1 off 0 + nth 1 size 0) ->
       nth 2 off 0 <= x < Nat.min W (nth 2 off 0 + nth 2 size 0) -> val z y x = (x * L + y) * W + z).
Proof. exact block_test_all. Qed.
Print Assumptions C100_reader_partial.
Example C100_reader_demo :
  option_map snd (match test_block true 7 7 7 (fun z y x => (x * 7 + y) * 7 + z) [6; 1; 0] [3; 2; 3] (mem_new nat 18) with
                  | Ok r => Some r | Ub => None end) = Some true /\
  option_map snd (match test_block true 7 7 7 (fun z y x => (z * 7 + y) * 7 + x) [6; 1; 0] [3; 2; 3] (mem_new nat 18) with
                  | Ok r => Some r | Ub => None end) = Some false.
Proof. split; vm_compute; reflexivity. Qed.

(** ** grid/level/fulltest.h *)
Theorem C100_full_partial : forall mode W L b arr, 0 < W -> 0 < L -> (0 < b)%Z ->
  test_full mode W L b arr = Ok [Nat.min 64 W; Nat.min (Z.to_nat b) W; W; 0; 1].
Proof. exact full_test. Qed.
Print Assumptions C100_full_partial.
Example C100_full_demo : test_full RoundRobin 70 70 12 (fun _ => 0) = Ok [64; 12; 70; 0; 1].
Proof. vm_compute. reflexivity. Qed.
