(** * The unit tests: tests/unittest

    The test programs and their assertions on top of the models of the classes they test.  Two
    threads: 0 is the thread of the test framework, 1 the one it creates.

    Simplifications: MPI, pthread and netCDF functions do not fail, so the assertions about return
    codes hold; interleavings of sequentially consistent steps.  The tests with
    one thread (once, array type, pass-through level) are in UnitTypeModel.v. *)
From Verif Require Export CacheModel BlockedModel NetCdfModel NumaModel CommThreadModel.

(** ** tests/unittest/threads/synctest.h

    [value] (line 46) and, for the broadcast, what [pointer] (line 47) points to (0: null) are
    one shared number. *)
Inductive uop :=
| UWrite (v : nat)                          (* value = v *)
| UCheck (v : nat)                          (* TS_ASSERT_EQUALS(value, v) *)
| UCall (shared : bool) (inner : list uop)  (* one barrier or broadcast; [inner]: the code after waitBarrier
                                               and before endBarrier; [shared]: the result goes to the
                                               shared variable *)
| UJoin.                                    (* pthread_join *)

Record utest := UTest { ut_main : list uop; ut_second : list uop; ut_rounds : nat; ut_root : nat -> option nat }.

(** Lines 51-65, 106-122. *)
Definition test_barrier : utest :=
  UTest [UCall false []; UCheck 42; UCall false []; UJoin; UCheck 5]
        [UWrite 42; UCall false []; UCall false []; UWrite 5] 2 (fun _ => None).
(** Lines 67-86, 124-143.  The flag [last] of [waitBarrier] is that of a broadcast from thread 0. *)
Definition test_wait_barrier : utest :=
  UTest [UWrite 42; UCall false [UCheck 0; UWrite 3]; UCheck 3; UJoin]
        [UCall false [UWrite 0]] 1 (fun _ => Some 0).
(** Lines 88-103, 145-154; [pointer = 0L] in line 93. *)
Definition test_broadcast : utest :=
  UTest [UWrite 0; UCall false []; UJoin; UCheck 77]
        [UCall true []] 1 (fun _ => Some 0).

(** [myvalue = 77] (line 94); [old]: what the variable of the second thread is before. *)
Definition ut_cfg (spurious : bool) (old : nat) (x : utest) : ycfg nat :=
  YCfg 2 (ut_rounds x) (ut_root x) (fun t _ => if t =? 0 then 77 else old) spurious.

(** [u_ok]: no assertion has failed. *)
Record ust := USt { u_sync : yst nat; u_value : nat; u_prog : nat -> list uop; u_ok : bool }.
Definition u_init (c : ycfg nat) (value : nat) (x : utest) : ust :=
  USt (yinit c) value (fun t => if t =? 0 then ut_main x else ut_second x) true.

(** A statement of the test itself. *)
Definition u_simple (s : ust) (o : uop) : option (nat * bool) :=
  match o with
  | UWrite v => Some (v, u_ok s)
  | UCheck v => Some (u_value s, (u_ok s && (u_value s =? v))%bool)
  | UJoin => match u_prog s 1 with [] => Some (u_value s, u_ok s) | _ => None end
  | UCall _ _ => None
  end.
Definition u_next (s : ust) (t : nat) (p : list uop) (r : option (nat * bool)) : option (outcome ust) :=
  match r with
  | Some (v, b) => Some (Ok (USt (u_sync s) v (upd (u_prog s) t p) b))
  | None => None
  end.

Definition u_step (c : ycfg nat) (s : ust) (a : yact) : option (outcome ust) :=
  match a with
  | YSpur t =>
      match ystep c (u_sync s) a with
      | Some (Ok y) => Some (Ok (USt y (u_value s) (u_prog s) (u_ok s)))
      | Some Ub => Some Ub
      | None => None
      end
  | YStep t =>
      if t <? 2 then
        match u_prog s t with
        | [] => None
        | UCall sh inner :: p =>
            match y_pc (y_thr (u_sync s) t), inner with
            | YEnd, o :: inner' => u_next s t (UCall sh inner' :: p) (u_simple s o)
            | pc, _ =>
                match ystep c (u_sync s) a with
                | Some (Ok y) =>
                    Some (Ok (USt y
                      (match pc with YCopy => if sh then y_var (y_thr y t) else u_value s | _ => u_value s end)
                      (match pc with YEnd => upd (u_prog s) t p | _ => u_prog s end) (u_ok s)))
                | Some Ub => Some Ub
                | None => None
                end
            end
        | o :: p => u_next s t p (u_simple s o)
        end
      else None
  end.
Fixpoint u_run (c : ycfg nat) (s : ust) (l : list yact) : option (outcome ust) :=
  match l with
  | [] => Some (Ok s)
  | a :: l' => match u_step c s a with
               | Some (Ok s') => u_run c s' l'
               | x => x
               end
  end.

(** ** tests/unittest/numa/numatest.h, tests/unittest/numa/numacommtest.h

    Both threads call [registerThread] on an object with two threads ([setThreads(2)]), then some of
    them use a communicator. *)
Inductive vtest :=
| VRegister     (* numatest.h lines 66-90, 114-120 *)
| VCreate       (* numatest.h lines 92-111, 122-133 *)
| VBroadcast    (* numacommtest.h lines 70-97, 124-147 *)
| VAllocate.    (* numacommtest.h lines 99-121, 149-165 *)

(** [v_comm]: the [Sync] object of the communicator (or of [createComm]) once it was used. *)
Record vst := VSt { v_reg : nsys unit; v_comm : option (yst Z) }.

Definition v_regcfg : ycfg unit := YCfg 2 1 (fun _ => None) (fun _ _ => tt) false.

Section NumaTests.
(** [node]: the NUMA node of a thread; [ptr]: address of [value], of the new communicator or of the new
    memory; [junk]: other variables before the call (domain, call).  No spurious wake-ups. *)
Variables (x : vtest) (node : nat -> nat) (ptr : Z) (junk : nat -> nat -> Z).

(** [domainId()], [threadId()] and the flag from [registerThread]. *)
Definition v_dom (s : vst) (t : nat) : nat :=
  match ns_reg (v_reg s) t with Some r => r_dom r | None => 0 end.
Definition v_tid (s : vst) (t : nat) : nat :=
  match ns_reg (v_reg s) t with Some r => r_tid r | None => 0 end.
Definition v_master (s : vst) (t : nat) : bool :=
  match ns_reg (v_reg s) t with Some r => r_master r | None => false end.
(** [totalDomains()], numa/numa.h line 130. *)
Definition v_domains (s : vst) : nat := length (n_domains (ns_numa (v_reg s))).

(** The second thread takes part in the communication if there are several domains (numatest.h line 129,
    numacommtest.h lines 133, 158). *)
Definition v_part (s : vst) (t : nat) : bool := ((t =? 0) || (1 <? v_domains s))%bool.
(** Calls on the communicator. *)
Definition v_rounds : nat := match x with VRegister => 0 | VCreate | VAllocate => 1 | VBroadcast => 2 end.
(** The root which thread [t] names: numacommtest.h lines 83, 87, 138, 142, numa/numa.cpp line 170,
    numa/numacomm.h line 142. *)
Definition v_names (s : vst) (t : nat) : nat :=
  match x with VBroadcast => if t =? 0 then v_dom s 0 else 1 - v_dom s t | _ => 0 end.
(** The configuration uses the root named by thread 0. *)
Definition v_cfg (s : vst) : ycfg Z :=
  YCfg (v_domains s) v_rounds (fun _ => Some (v_names s 0))
       (fun d k => if d =? v_names s 0 then ptr else junk d k) false.

Definition v_registered (s : vst) (t : nat) : bool := 0 <? y_round (y_thr (ns_sync (v_reg s)) t).

Definition v_step (s : vst) (t : nat) : option (outcome vst) :=
  if t <? 2 then
    if v_registered s t then
      if v_part s t then
        let y := match v_comm s with Some y => y | None => yinit (v_cfg s) end in
        match ystep (v_cfg s) y (YStep (v_dom s t)) with
        | Some (Ok y') => Some (Ok (VSt (v_reg s) (Some y')))
        | Some Ub => Some Ub
        | None => None
        end
      else None
    else
      match nstep v_regcfg true node (v_reg s) (YStep t) with
      | Some (Ok n) => Some (Ok (VSt n (v_comm s)))
      | Some Ub => Some Ub
      | None => None
      end
  else None.
Fixpoint v_run (s : vst) (l : list nat) : option (outcome vst) :=
  match l with
  | [] => Some (Ok s)
  | t :: l' => match v_step s t with
               | Some (Ok s') => v_run s' l'
               | r => r
               end
  end.
Definition v_init : vst := VSt (nsys_init v_regcfg) None.

(** What thread [t] got from its calls on the communicator. *)
Definition v_outs (s : vst) (t : nat) : list Z :=
  match v_comm s with Some y => map snd (y_out (y_thr y (v_dom s t))) | None => [] end.
(** Thread [t] has finished. *)
Definition v_done (s : vst) (t : nat) : bool :=
  (v_registered s t && (negb (v_part s t) || (length (v_outs s t) =? v_rounds)))%bool.
(** [data] of [allocate] with one element for each domain (numa/numacomm.h line 147), in elements. *)
Definition v_slice (s : vst) (t : nat) : option Z :=
  option_map (fun p => nslice p 1 (v_dom s t)) (nth_error (v_outs s t) 0).

(** The assertions after [pthread_join]: numatest.h lines 81-89, 107; numacommtest.h lines 93-96, 116-120.
    Success of [registerThread] and of the calls on the communicator is left out. *)
Definition v_ok (s : vst) : bool :=
  match x with
  | VRegister =>
      ((if v_domains s =? 1 then xorb (v_master s 0) (v_master s 1) else v_master s 0 && v_master s 1) &&
       (v_tid s 0 =? 0) && (v_tid s 1 =? 1))%bool
  | VCreate => match v_outs s 0 with p :: _ => negb (p =? 0)%Z | [] => false end
  | VBroadcast =>
      if v_domains s =? 1 then true
      else match v_outs s 0, v_outs s 1 with
           | [_; data], [p; q] => ((p =? data) && (q =? data))%Z%bool
           | _, _ => false
           end
  | VAllocate =>
      if v_domains s =? 1 then match v_slice s 0 with Some data => negb (data =? 0)%Z | None => false end
      else match v_slice s 0, v_slice s 1 with
           | Some data, Some data2 => (data + 1 =? data2)%Z
           | _, _ => false
           end
  end.
End NumaTests.

(** ** tests/unittest/cache/cachelisttest.h, tests/unittest/cache/cachemanagertest.h

    One step of a test: a call with its expected results. *)
Inductive lop :=
| LGet (block : nat) (index : option nat)         (* getIndex: not found, or found there *)
| LFree (block index : nat) (old : option nat)    (* getFreeIndex *)
| LCall (block : nat)                             (* getFreeIndex without assertion *)
| LRequest (block : nat) (old : option nat)       (* CacheManager::get; data are not looked at *)
| LFull (block : nat).                            (* CacheManager::get returns some block *)

Definition nat_opt_eqb (a b : option nat) : bool :=
  match a, b with Some i, Some j => i =? j | None, None => true | _, _ => false end.

Definition l_step (c : clist) (o : lop) : outcome (clist * bool) :=
  match o with
  | LGet b i => do r <- clist_get_index c b; let '(c', j) := r in Ok (c', nat_opt_eqb i j)
  | LFree b i old =>
      do r <- clist_get_free c b; let '(c', j, old') := r in Ok (c', ((i =? j) && nat_opt_eqb old old')%bool)
  | LCall b => do r <- clist_get_free c b; let '(c', _, _) := r in Ok (c', true)
  | LRequest b old => do r <- clist_request c b; let '(c', _, old') := r in Ok (c', nat_opt_eqb old old')
  | LFull b =>
      do r <- clist_request c b; let '(c', _, old') := r in
      Ok (c', match old' with Some _ => true | None => false end)
  end.
Fixpoint l_run (c : clist) (l : list lop) : outcome bool :=
  match l with
  | [] => Ok true
  | o :: l' => do r <- l_step c o; let '(c', b) := r in do b' <- l_run c' l'; Ok (b && b')%bool
  end.

(** cachelisttest.h lines 57-86, with the blocks [a]...[d] instead of 5...8. *)
Definition test_get_index (a b c d : nat) : list lop :=
  [LGet a None; LCall a; LCall b; LCall c; LGet b (Some 1); LCall d; LGet d (Some 0); LGet a None].
(** Lines 88-113. *)
Definition test_get_free (a b c d : nat) : list lop :=
  [LFree a 0 None; LFree b 1 None; LFree c 2 None; LFree d 0 (Some a); LFree c 1 (Some b)].
(** cachemanagertest.h lines 61-88, with the blocks [a]...[d] instead of 5, 3, 10, 12. *)
Definition test_get (a b c d : nat) : list lop :=
  [LRequest a None; LRequest b None; LRequest a (Some a); LRequest c None; LRequest b (Some b); LFull d].

(** ** tests/unittest/mpi/commthread.h: testSendRecv, lines 73-98 (testInit and testRegister are parts of it)

    [n] processes; registration 0 on MPI_COMM_WORLD.  [w_pos r]: the next statement of process [r];
    [w_recv]: the member [received]. *)
Record wst := WSt { w_k : kst; w_pos : nat -> nat; w_recv : nat -> Z; w_ok : bool }.

Section MpiTest.
Variable n : nat.
Definition w_grp (g : nat) : list nat := seq 0 n.

Definition w_init : wst := WSt kinit (fun _ => 0) (fun _ => 0%Z) true.

Inductive wact := WMain (r : nat) | WHandle (r src : nat).

(** mpi/commthread.h lines 187-190: the exit message of [finialize]. *)
Definition w_exit (k : kst) (r : nat) : kst :=
  KSt (ks_proc k) (ks_in k) (ks_tag k) (ks_closed k) (ks_net k ++ [KMsg r r EXIT_TAG 0 None]) (ks_sent k) (ks_log k).
Definition w_lift (s : wst) (r : nat) (o : option (outcome kst)) : option (outcome wst) :=
  match o with
  | Some (Ok k) => Some (Ok (WSt k (upd (w_pos s) r (S (w_pos s r))) (w_recv s) (w_ok s)))
  | Some Ub => Some Ub
  | None => None
  end.
Definition is_free (l : klock) : bool := match l with KFree => true | _ => false end.

Definition w_step (s : wst) (a : wact) : option (outcome wst) :=
  let go r := Some (Ok (WSt (w_k s) (upd (w_pos s) r (S (w_pos s r))) (w_recv s) (w_ok s))) in
  match a with
  | WMain r =>
      if r <? n then
        match w_pos s r with
        | 0 => w_lift s r (kstep w_grp (w_k s) (KEnter r 0))      (* line 76 *)
        | 1 => w_lift s r (kstep w_grp (w_k s) (KReturn r 0))
        | 2 => Some (Ok (WSt (w_k s) (upd (w_pos s) r 3) (upd (w_recv s) r (-1)%Z) (w_ok s)))   (* line 79 *)
        | 3 => w_lift s r (kstep w_grp (w_k s) (KSend r 0 r 42))  (* line 83: to the own rank *)
        | 4 => (* line 85: MPI_Barrier *)
            if forallb (fun q => 4 <=? w_pos s q) (seq 0 n) then go r else None
        | 5 => w_lift s r (kstep w_grp (w_k s) (KUnreg r 0))      (* line 87 *)
        | 6 => (* MPI_Ssend returns when the message is received *)
            if existsb (fun m => (Nat.eqb (km_src m) r && Nat.eqb (km_dst m) r && (km_tag m =? UNREG_TAG)%Z)%bool) (ks_net (w_k s))
            then None else go r
        | 7 => (* line 89 *)
            if is_free (kp_lock (ks_proc (w_k s) r)) then w_lift s r (Some (Ok (w_exit (w_k s) r))) else None
        | 8 => (* pthread_join *)
            if kp_run (ks_proc (w_k s) r) then None else go r
        | 9 => (* lines 91-92 *)
            Some (Ok (WSt (w_k s) (upd (w_pos s) r 10) (w_recv s) (w_ok s && (w_recv s r =? 42)%Z)%bool))
        | _ => None
        end
      else None
  | WHandle r src =>
      if r <? n then
        match kstep w_grp (w_k s) (KHandle r src) with
        | Some (Ok k) =>
            (* lines 95-98: called by the communication thread *)
            let got := if Nat.eqb (length (ks_log k)) (length (ks_log (w_k s))) then None
                       else match ks_log k with KGot _ _ _ _ d :: _ => Some d | _ => None end in
            Some (Ok (WSt k (w_pos s) (match got with Some d => upd (w_recv s) r d | None => w_recv s end) (w_ok s)))
        | Some Ub => Some Ub
        | None => None
        end
      else None
  end.
Fixpoint w_run (s : wst) (l : list wact) : option (outcome wst) :=
  match l with
  | [] => Some (Ok s)
  | a :: l' => match w_step s a with
               | Some (Ok s') => w_run s' l'
               | r => r
               end
  end.
End MpiTest.

(** ** tests/unittest/io/netcdfreadertest.h: testGetBlock, lines 80-136

    One [getBlock] and the loop which compares; the file has [H], [L], [W] cells and the value
    [val z y x].  The test expects [(x * LENGTH + y) * WIDTH + z] (lines 142-145). *)
Definition test_block (opaque : bool) (H L W : nat) (val : nat -> nat -> nat -> nat) (off size : list nat)
    (buffer : mem nat) : outcome (mem nat * bool) :=
  let f := File [H; L; W] (fun ix => val (nth 0 ix 0) (nth 1 ix 0) (nth 2 ix 0)) in
  do m <- get_block opaque f off size 0 buffer;
  let o i := nth i off 0 in
  let b i := nth i size 0 in
  Ok (m,
    forallb (fun i => forallb (fun j => forallb (fun k =>
      match m_at m ((i * b 1 + j) * b 2 + k) with
      | Some v => v =? ((k + o 2) * L + (j + o 1)) * W + (i + o 0)
      | None => false
      end)
      (seq 0 (Nat.min (W - o 2) (b 2)))) (seq 0 (Nat.min (L - o 1) (b 1)))) (seq 0 (Nat.min (H - o 0) (b 0)))).

(** ** tests/unittest/grid/level/fulltest.h: testTotalBlockSize, lines 90-97, and testLocal2global, lines 99-103

    The three grids of [setUp], lines 57-82: [W] cells without and with the parameter
    BLOCK_SIZE_0 = [b], and [L] times [W] cells with BLOCK_SIZE_0 = -1.  The values which the test
    compares; one process, one domain. *)
Definition test_full (mode : dist_mode) (W L : nat) (b : Z) (arr : nat -> nat) : outcome (list nat) :=
  let user z i := if i =? 0 then z else 0%Z in
  do g0 <- blocked_open [W] (user 0%Z) (-1)%Z arr;
  do g1 <- blocked_open [W] (user b) (-1)%Z arr;
  do g2 <- blocked_open [L; W] (user (-1)%Z) (-1)%Z arr;
  let d := Dist mode 1 1 (b_total g0) in
  Ok [b_tbs g0; b_tbs g1; nth 1 (b_bs g2) 0; local2global d 0 0 0; local2global d 0 0 1].
