(** * Several grids read by the same threads: the library-wide MPI lock and the shared communication thread

    With THREADSAFE_MPI (default, /repo/CMakeLists.txt line 52) the MPI windows of all grids of a process are used under one mutex,
    [mpi::MPIComm::mpiLock] (mpi/mpicomm.h lines 56-64 and 180):
    - transfer/mpiwincache.h line 247 ([startTransfer]) to line 437 ([endTransfer]), so also while a thread waits for the
      dictionary entry, copies a block and reads the file,
    - transfer/mpiwincache.h line 472 ([deleteBlock], whole function),
    - transfer/mpiwinfull.h line 166 ([transfer], whole function).
    All grids of a process share one communication thread (mpi/commthread.h line 318), which handles one message at a time.

    A world consists of cache grids (ConcModel.v) and full grids (FullConcModel.v).  Every thread reads from the grids in
    the order given by its program; it begins a read when the last one is answered.

    Simplifications: those of ConcModel.v and FullConcModel.v; every grid has one level and its own communicator, the
    communicators contain the same processes in the same order; handling a request of a full grid by the
    communication thread is one step (as in FullConcModel.v). *)
From Verif Require Export FullConcModel.

Inductive gcfg (V : Type) := GC (c : cfg V) | GF (c : fcfg V).
Inductive gst (V : Type) := SC (s : st V) | SF (s : fst_ V).
Arguments GC {V}. Arguments GF {V}. Arguments SC {V}. Arguments SF {V}.

(** [w_lib p]: thread which has locked [mpiLock] of process [p]; [w_order t]: the grids of the reads thread
    [t] has not finished. *)
Record world (V : Type) := World {
  w_grid : nat -> gst V;
  w_lib : nat -> option nat;
  w_order : nat -> list nat
}.
Arguments World {V}. Arguments w_grid {V}. Arguments w_lib {V}. Arguments w_order {V}.

Section Step.
Context {V : Type}.
Variable lib : bool.                (* THREADSAFE_MPI *)
Variable G : nat.                   (* number of grids *)
Variable rk : nat -> nat.           (* process of a thread *)
Variable cfgs : nat -> gcfg V.
Variable order : nat -> list nat.

(** The next step of thread [t] in this grid is in a function that begins with locking [mpiLock]. *)
Definition needs (gc : gcfg V) (gs : gst V) (t : nat) : bool :=
  match gc, gs with
  | GC c, SC s =>
      match cf_mode c with
      | MWin => match t_pc (s_thr s t) with
                | PDel _ _ | PAdd _ | PStart _ => true   (* mpiwincache.h lines 472, 247 *)
                | _ => false
                end
      | _ => false
      end
  | GF c, SF s =>
      match fc_mpi c with
      | XWin => match q_pc (u_thr s t) with QMpi _ => true | _ => false end   (* mpiwinfull.h line 166 *)
      | _ => false
      end
  | _, _ => false
  end.

(** The next step of thread [t] includes unlocking [mpiLock]. *)
Definition frees (gc : gcfg V) (gs : gst V) (t : nat) : bool :=
  match gc, gs with
  | GC c, SC s =>
      match cf_mode c with
      | MWin => match t_pc (s_thr s t) with
                | PDelRel _ _ | PAddRel _ | PEnd _ => true   (* mpiwincache.h lines 572, 437 *)
                | _ => false
                end
      | _ => false
      end
  | GF c, SF s =>
      match fc_mpi c with
      | XWin => match q_pc (u_thr s t) with QGet _ x => negb (x <? fc_cells c) | _ => false end   (* mpiwinfull.h line 191 *)
      | _ => false
      end
  | _, _ => false
  end.

Definition gstep_thr (gc : gcfg V) (gs : gst V) (t : nat) (ch : choice V) : option (gst V) :=
  match gc, gs with
  | GC c, SC s => option_map SC (step_thr c s t ch)
  | GF c, SF s => option_map SF (ustep_thr c s t (ch_fail ch))
  | _, _ => None
  end.
(** The communication thread of process [r]. *)
Definition gstep_com (gc : gcfg V) (gs : gst V) (r : nat) (ch : choice V) : option (gst V) :=
  match gc, gs with
  | GC c, SC s => option_map SC (step c s (ACom r ch))
  | GF c, SF s => option_map SF (ustep c s (UCom r (ch_src ch)))
  | _, _ => None
  end.
(** The communication thread is in a receiver of this grid. *)
Definition com_busy (gs : gst V) (r : nat) : bool :=
  match gs with SC s => match s_com s r with CIdle => false | _ => true end | SF _ => false end.
(** Number of reads of thread [t] which are not finished. *)
Definition gtodo (gs : gst V) (t : nat) : nat :=
  match gs with SC s => length (t_todo (s_thr s t)) | SF s => length (q_todo (u_thr s t)) end.

Definition holds_lib (w : world V) (t : nat) : bool :=
  match w_lib w (rk t) with Some t' => t' =? t | None => false end.

(** One step of thread [t]. *)
Definition wstep_thr (w : world V) (t : nat) (ch : choice V) : option (world V) :=
  match w_order w t with
  | [] => None
  | g :: rest =>
      let gs := w_grid w g in
      if lib && needs (cfgs g) gs t && negb (holds_lib w t) then
        match w_lib w (rk t) with
        | None => Some (World (w_grid w) (upd (w_lib w) (rk t) (Some t)) (w_order w))
        | Some _ => None
        end
      else
        match gstep_thr (cfgs g) gs t ch with
        | None => None
        | Some gs' =>
            Some (World (upd (w_grid w) g gs')
                        (if lib && frees (cfgs g) gs t then upd (w_lib w) (rk t) None else w_lib w)
                        (if gtodo gs' t <? gtodo gs t then upd (w_order w) t rest else w_order w))
        end
  end.

(** One step of the communication thread of process [r], in grid [g]. *)
Definition wstep_com (w : world V) (g r : nat) (ch : choice V) : option (world V) :=
  if (g <? G) && negb (existsb (fun g' => negb (g' =? g) && com_busy (w_grid w g') r) (seq 0 G)) then
    match gstep_com (cfgs g) (w_grid w g) r ch with
    | None => None
    | Some gs' => Some (World (upd (w_grid w) g gs') (w_lib w) (w_order w))
    end
  else None.

Inductive wact := WThr (t : nat) (ch : choice V) | WCom (g r : nat) (ch : choice V).

Definition wstep (w : world V) (a : wact) : option (world V) :=
  match a with WThr t ch => wstep_thr w t ch | WCom g r ch => wstep_com w g r ch end.

Fixpoint wrun (w : world V) (acts : list wact) : option (world V) :=
  match acts with
  | [] => Some w
  | a :: acts' => match wstep w a with Some w' => wrun w' acts' | None => None end
  end.

(** All grids are open, all caches empty. *)
Definition ginit (gc : gcfg V) (l0 : clist) : gst V :=
  match gc with GC c => SC (init c l0) | GF c => SF (uinit c l0) end.
Definition gsize (gc : gcfg V) : nat := match gc with GC c => cf_size c | GF c => fc_size c end.
Definition gspread (gc : gcfg V) : Z := match gc with GC c => cf_spread c | GF c => fc_spread c end.
Definition winit (l0 : nat -> clist) : world V := World (fun g => ginit (cfgs g) (l0 g)) (fun _ => None) order.

Definition wreach (w : world V) : Prop :=
  exists l0 acts, (forall g, clist_init (gsize (cfgs g)) (gspread (cfgs g)) = Ok (l0 g)) /\ wrun (winit l0) acts = Some w.
End Step.
