(** * Registration of threads and memory of the NUMA domains: numa/numa.cpp, numa/numa.h,
      numa/numacomm.h, transfer/numafull.h *)
From Verif Require Export SyncModel.
Require Import NArith ZArith.

(** ** numa/numa.cpp: the variables of [Numa] which registration uses *)
Record nst := NSt {
  n_masters : list bool;           (* m_masterThreads *)
  n_domains : list (nat * nat);    (* m_domains: node -> domain id *)
  n_ready : bool                   (* m_initialized *)
}.
Definition ninit : nst := NSt [] [] false.

(** What one thread gets: thread id, domain id, master flag. *)
Record nreg := NReg { r_tid : nat; r_dom : nat; r_master : bool }.

(** [std::map::find]. *)
Fixpoint nfind (l : list (nat * nat)) (x : nat) : option nat :=
  match l with
  | [] => None
  | (y, v) :: l' => if y =? x then Some v else nfind l' x
  end.
(** [std::vector<bool>::resize] if too short; new entries are false. *)
Definition nresize (l : list bool) (n : nat) : list bool :=
  if length l <? n then l ++ repeat false (n - length l) else l.
Fixpoint nset (l : list bool) (i : nat) : list bool :=
  match l, i with
  | [], _ => []
  | _ :: l', 0 => true :: l'
  | b :: l', S i' => b :: nset l' i'
  end.

(** numa/numa.cpp lines 100-135: between [startBarrier] and [waitBarrier], [waiting] threads
    wait already.  [node]: the number of the NUMA node (a natural number: negative numbers
    are an error, line 92). *)
Definition nregister (total : nat) (detect : bool) (s : nst) (waiting node : nat) : nst * nreg :=
  let tid := waiting in
  let node := if detect then node else 0 in
  let ms := nresize (n_masters s) (tid + 1) in
  let '(doms, ms', dom, master) :=
    match nfind (n_domains s) node with
    | None => let d := length (n_domains s) in
              (n_domains s ++ [(node, d)], nset ms tid, d, true)
    | Some d => (n_domains s, ms, d, false)
    end in
  (NSt ms' doms (if total - 1 <=? waiting then true else n_ready s), NReg tid dom master).

(** Lines 77-80: a later call. *)
Definition nagain (s : nst) (tid : nat) : option bool := nth_error (n_masters s) tid.

(** ** Registration by concurrent threads

    Call 0 on [m_syncThreads] is the registration, all later calls are barriers and
    broadcasts.  The registration code runs in the step of [SyncModel] which stands
    for the code between [startBarrier] and the first wait of [waitBarrier]. *)
Record nsys (V : Type) := NSys {
  ns_sync : yst V;
  ns_numa : nst;
  ns_reg : nat -> option nreg
}.
Arguments NSys {V}. Arguments ns_sync {V}. Arguments ns_numa {V}. Arguments ns_reg {V}.

Section Register.
Context {V : Type} (c : ycfg V) (detect : bool) (node : nat -> nat).

Definition nstep (s : nsys V) (a : yact) : option (outcome (nsys V)) :=
  match ystep c (ns_sync s) a with
  | Some (Ok y') =>
      match a with
      | YStep t =>
          let x := y_thr (ns_sync s) t in
          match y_pc x, y_round x with
          | YIn, 0 =>
              let '(n', r) := nregister (y_n c) detect (ns_numa s) (y_synced (ns_sync s)) (node t) in
              Some (Ok (NSys y' n' (upd (ns_reg s) t (Some r))))
          | _, _ => Some (Ok (NSys y' (ns_numa s) (ns_reg s)))
          end
      | YSpur _ => Some (Ok (NSys y' (ns_numa s) (ns_reg s)))
      end
  | Some Ub => Some Ub
  | None => None
  end.
Fixpoint nrun (s : nsys V) (l : list yact) : option (outcome (nsys V)) :=
  match l with
  | [] => Some (Ok s)
  | a :: l' => match nstep s a with
               | Some (Ok s') => nrun s' l'
               | x => x
               end
  end.
Definition nsys_init : nsys V := NSys (yinit c) ninit (fun _ => None).
End Register.

(** ** The word stored for each thread: numa.cpp line 148, numa.h lines 138-151

    [w]: bits of an id (32 on LP64, 16 otherwise); the word has [2 * w] bits. *)
Definition npack (w tid dom : N) : N :=
  N.lor (N.modulo (N.shiftl tid w) (2 ^ (2 * w)))%N dom.
Definition nthread_id (w ids : N) : N := N.shiftr ids w.
Definition ndomain_id (w ids : N) : N := N.land ids (N.shiftl 1 w - 1)%N.

(** ** numa/numacomm.h lines 132-150

    [base]: the pointer after the broadcast; [size]: bytes for one domain. *)
Definition nalloc_total (size domains : Z) : Z := (size * domains)%Z.
Definition nslice (base size : Z) (d : nat) : Z := (base + size * Z.of_nat d)%Z.

(** transfer/numafull.h lines 91-92 and 115: the start of the memory as computed by the
    domain [d] with slice pointer [data], and the address of a block there. *)
Definition nfull_start (data blockSize blockCount : Z) (d : nat) : Z :=
  (data + - (Z.of_nat d * blockSize * blockCount))%Z.
Definition nfull_addr (start blockSize blockCount : Z) (dom offset : nat) : Z :=
  (start + (blockCount * Z.of_nat dom + Z.of_nat offset) * blockSize)%Z.
