(** * C84: the mutexes of the library *)
From Coq Require Import Lia.
From Verif Require Import LockModel LockSpec LockFacts.

(** No thread locks a mutex it holds or unlocks one it does not hold, whatever threads call and however calls fail. *)
Theorem C84_defined : forall c N p l, run N (init c p) l <> Bad.
Proof. exact never_bad. Qed.

(** At most one thread of the process is in the netCDF library. *)
Theorem C84_netcdf : forall c N p s t u, thr c = true -> reach N c p s -> in_netcdf s t -> in_netcdf s u -> t = u.
Proof. exact one_reader. Qed.

(** No thread stays in the netCDF library or in MPI with a mutex that protects data of the library only. *)
Theorem C84_brief : forall c N p s t l, reach N c p s -> in_netcdf s t \/ in_mpi s t -> holds s t l -> ~ brief l.
Proof. exact outside_calm. Qed.

(** No thread waits for other domains with a mutex. *)
Theorem C84_barrier : forall c N p s t l, reach N c p s -> in_barrier s t -> ~ holds s t l.
Proof. exact barrier_free. Qed.

(** The threads stop only when all calls have returned and all mutexes are free ... *)
Theorem C84_returns : forall c N p s, reach N c p s -> (stuck N s <-> finished N s).
Proof. exact stuck_finished. Qed.
(** ... and they stop. *)
Theorem C84_bounded : forall c N p, exists n, forall l s, run N (init c p) l = Go s -> length l <= n.
Proof. exact bounded. Qed.

(** Thread 0 opens a cache grid with windows on domain 0 (its variable is missing) and closes it; thread 1 reads from another grid and
    misses; thread 2 opens a full grid with communication thread, thread 3 closes such a grid and thread 4 answers requests. *)
Definition ex_read : read := Read 1 0 false false 3 false true 2 (fun _ => Some 5) (Entry true 0) (Entry false 4) true true true true 1.
Definition ex_open (o : opened) (once : nat) : open_args :=
  OpenArgs 7 2 0 once true true false 1 o [Dim true false; Dim false true] false true 2 (fun _ => false).
Definition ex_close : close_args := CloseArgs true true true true true true.
Definition ex_prog (t : nat) : list call :=
  match t with
  | 0 => [CNew; COpen (KCacheDist MWin true) (ex_open NoVar 2); CClose (KCacheDist MWin true) [(0, ex_close); (1, ex_close)]]
  | 1 => [CRead (KCacheDist MWin true) ex_read; CRead (KFullDist MThread true true) ex_read]
  | 2 => [CComm; COpen (KFullDist MThread true true) (ex_open (Opened 2) 1)]
  | 3 => [CClose (KFullDist MThread true true) [(0, ex_close)]]
  | _ => [CTransfer 1 2 (fun _ => Some 3); CUpdate 1 0; CInfo 1 0]
  end.
Definition ex_cfg : cfg := Cfg true true true.
(** All in turn, [n] rounds; a thread that waits is passed over. *)
Definition ex_turn (s : st) (t : nat) : st := match step 5 s (if t =? 5 then AComm else AThr t) with Go s' => s' | _ => s end.
Definition ex_rounds (n : nat) : st := Nat.iter n (fun s => fold_left ex_turn (seq 0 6) s) (init ex_cfg ex_prog).
Definition ex_locks : list lock :=
  [LOnce 7; LCache 1 0; LSlot 1 0 3; LCache 1 1; LSlot 1 1 5; LMpi; LSend 2; LEntry 1 0; LReg; LType 7; LNc; LCount 1 0 0; LPtr].
Example C84_ex :
  let s := ex_rounds 11 in
  ((forallb (fun t => match s_code s t with Done => false | _ => true end) (seq 0 4)) &&
   (existsb (fun l => match s_owner s l with Some _ => true | None => false end) ex_locks))%bool = true.
Proof. vm_compute. reflexivity. Qed.
Example C84_ex_end :
  let s := ex_rounds 80 in
  ((forallb (fun t => match s_code s t with Done => true | _ => false end) (seq 0 5)) &&
   negb (existsb (fun l => match s_owner s l with Some _ => true | None => false end) ex_locks))%bool = true.
Proof. vm_compute. reflexivity. Qed.
(** One thread reads from the file, another one waits for it. *)
Example C84_ex_waits :
  match run 2 (init (Cfg true true false) (fun _ => [CRead KPass ex_read])) [AThr 0] with
  | Go s => in_netcdf s 0 /\ step 2 s (AThr 1) = Wait
  | _ => False
  end.
Proof. cbn. split; [eexists | ]; reflexivity. Qed.
(** Without THREADSAFE the library is not protected. *)
Example C84_ex_unsafe :
  match run 2 (init (Cfg false false false) (fun _ => [CRead KPass ex_read])) [] with
  | Go s => in_netcdf s 0 /\ in_netcdf s 1
  | _ => False
  end.
Proof. cbn. split; eexists; reflexivity. Qed.

Print Assumptions C84_defined.
Print Assumptions C84_netcdf.
Print Assumptions C84_brief.
Print Assumptions C84_barrier.
Print Assumptions C84_returns.
Print Assumptions C84_bounded.
