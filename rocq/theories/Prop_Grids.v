(** * Property C70: several open grids read by the same threads; mpi::MPI's [mpiLock] and one communication thread *)
From Verif Require Import GridsFacts.

(** C70: any number of grids (cached or full, each with its own settings), threads and processes, with or without
    THREADSAFE_MPI, every schedule: the completed reads of a thread are the first ones of its program, and the values
    it got from a grid are those of the file of this grid at the positions asked for, in order. *)
Theorem C70_values :
  forall (V : Type) lib G P rk (kinds : nat -> kind (V := V)) reads, all_set G P rk kinds reads ->
  forall w, wreach lib G rk (kcfgs P rk kinds reads) (korder reads) w -> forall t, exists n,
  w_order w t = map fst (skipn n (reads t)) /\
  forall g, gdone (w_grid w g) t = map (fun ix => Some (Some (f_val (kfile (kinds g)) ix))) (of_grid g (firstn n (reads t))).
Proof. exact (fun V => @k_values V). Qed.
Print Assumptions C70_values.

(** C70: no deadlock between locks of the grids, windows, [mpiLock] and the communication threads. *)
Theorem C70_no_deadlock :
  forall (V : Type) lib G rk (cfgs : nat -> gcfg V) order, wf_world G cfgs order ->
  forall w t, wreach lib G rk cfgs order w -> w_order w t <> [] -> exists a w', wstep lib G rk cfgs w a = Some w'.
Proof. exact (fun V => @w_no_deadlock V). Qed.
Print Assumptions C70_no_deadlock.

(** C70: every schedule ends unless a cached grid uses the communication thread (C61), and where it cannot be continued all
    reads are answered. *)
Theorem C70_finishes :
  forall (V : Type) lib G P rk (kinds : nat -> kind (V := V)) reads N,
  all_set G P rk kinds reads -> (forall g, g < G -> kpolls (kinds g) = false) -> (forall t, N <= t -> reads t = []) ->
  forall l0 acts w,
  (forall g, clist_init (gsize (kcfgs P rk kinds reads g)) (gspread (kcfgs P rk kinds reads g)) = Ok (l0 g)) ->
  wrun lib G rk (kcfgs P rk kinds reads) (winit (kcfgs P rk kinds reads) (korder reads) l0) acts = Some w ->
  length acts <= 2 * sum (fun g => sum (fun t =>
    (kcells (kinds g) + 5 * kdoms (kinds g) + 17) * length (of_grid g (reads t))) N) G + N /\
  ((forall a, wstep lib G rk (kcfgs P rk kinds reads) w a = None) ->
   forall t g, gdone (w_grid w g) t = map (fun ix => Some (Some (f_val (kfile (kinds g)) ix))) (of_grid g (reads t))).
Proof. exact (fun V => @k_finishes V). Qed.
Print Assumptions C70_finishes.

(** C70: with THREADSAFE_MPI at most one thread of a process is in the window functions of any of the grids. *)
Theorem C70_one_in_mpi :
  forall (V : Type) lib G rk (cfgs : nat -> gcfg V) order, wf_world G cfgs order ->
  forall w g g' t t', lib = true -> wreach lib G rk cfgs order w -> rk t = rk t' ->
  inside (cfgs g) (w_grid w g) t = true -> inside (cfgs g') (w_grid w g') t' = true -> t = t' /\ g = g'.
Proof. exact (fun V => @w_exclusive V). Qed.
Print Assumptions C70_one_in_mpi.

(** C70: every grid behaves as if it was the only one: its states are states of the model of one grid, so that the theorems
    C10 to C14, C61, C62 and C69 hold for it. *)
Theorem C70_alone :
  forall (V : Type) lib G rk (cfgs : nat -> gcfg V) order, wf_world G cfgs order ->
  forall w, wreach lib G rk cfgs order w -> forall g, greach (cfgs g) (w_grid w g).
Proof. exact (fun V => @w_alone V). Qed.
Print Assumptions C70_alone.

(** Three grids of two files on two processes with two domains each: cached with windows, full with windows, cached with
    communication thread.  Thread [t] runs on process [t mod 2], domain [t/2]. *)
Definition demo_f : file nat := File [5; 7] (fun ix => match ix with [i; j] => 10 * i + j | _ => 999 end).
Definition demo_h : file nat := File [3] (fun ix => match ix with [i] => 100 + i | _ => 999 end).
Definition demo_bf : blocked := Blocked [5; 7] [2; 3] [3; 3] 6 9.
Definition demo_bh : blocked := Blocked [3] [1] [3] 1 3.
Definition demo_kinds (g : nat) : kind (V := nat) :=
  match g with
  | 0 => KCache MWin demo_f demo_bf true Contiguous 2 1 0 (fun t => (t / 2) mod 2) (fun _ => [])
  | 1 => KFull XWin PNumaFullCache demo_h demo_bh true Contiguous 2 1 0 (fun t => (t / 2) mod 2)
  | _ => KCache MThread demo_h demo_bh false Contiguous 2 1 0 (fun t => (t / 2) mod 2) (fun _ => [])
  end.
Definition demo_reads (t : nat) : list (nat * list nat) :=
  match t with
  | 0 => [(0, [4; 6]); (1, [2]); (2, [1]); (0, [0; 0])]
  | 1 => [(1, [0]); (0, [4; 6]); (2, [2])]
  | 2 => [(1, [1]); (0, [4; 6]); (1, [2])]
  | 3 => [(2, [2]); (0, [2; 3])]
  | _ => []
  end.
Definition demo_rk (t : nat) : nat := t mod 2.

Example demo_set : all_set 3 2 demo_rk demo_kinds demo_reads.
Proof.
  assert (forall n (t : nat), t mod S n < S n) as Hm by (intros; apply Nat.mod_upper_bound; lia).
  split; [|intros [|[|[|[|t]]]]; repeat constructor].
  assert (exists user td arr0, blocked_open (f_size demo_f) user td arr0 = Ok demo_bf) as Hf
    by (exists (fun n => nth n [3; 2]%Z 0%Z), (-1)%Z, (fun _ => 0); reflexivity).
  assert (exists user td arr0, blocked_open (f_size demo_h) user td arr0 = Ok demo_bh) as Hh
    by (exists (fun _ => 1%Z), (-1)%Z, (fun _ => 0); reflexivity).
  intros [|[|g]]; cbn [kset demo_kinds].
  - split; [discriminate|]. split; [exact Hf|]. split; [lia|]. split; [lia|]. split; [apply (Hm 1)|]. split; [intros; apply (Hm 1)|].
    split; [intros b; cbn; split; [lia|constructor]|]. split; [auto|]. intros [|[|[|[|t]]]]; repeat constructor.
  - split; [discriminate|]. split; [exact Hh|]. split; [lia|]. split; [lia|]. split; [apply (Hm 1)|]. split; [intros; apply (Hm 1)|].
    split; [discriminate|]. intros [|[|[|[|t]]]]; repeat constructor.
  - split; [discriminate|]. split; [exact Hh|]. split; [lia|]. split; [lia|]. split; [apply (Hm 1)|]. split; [intros; apply (Hm 1)|].
    split; [intros b; cbn; split; [lia|constructor]|]. split; [auto|]. 
    destruct g; intros [|[|[|[|t]]]]; repeat constructor.
Qed.

Definition demo_world (lib : bool) (fuel : nat) (z : Z) : option (world (option nat)) :=
  match clist_init 1 0 with
  | Ok l0 =>
      let cs := kcfgs 2 demo_rk demo_kinds demo_reads in
      Some (snd (wplan lib 3 demo_rk cs fuel 4 2 z (winit cs (korder demo_reads) (fun _ => l0))))
  | Ub => None
  end.
Example demo_reach lib fuel z w : demo_world lib fuel z = Some w ->
  wreach lib 3 demo_rk (kcfgs 2 demo_rk demo_kinds demo_reads) (korder demo_reads) w.
Proof.
  unfold demo_world. destruct (clist_init 1 0) as [l0|] eqn:E; [|discriminate]. intros H. injection H as <-.
  set (cs := kcfgs 2 demo_rk demo_kinds demo_reads).
  exists (fun _ => l0), (fst (wplan lib 3 demo_rk cs fuel 4 2 z (winit cs (korder demo_reads) (fun _ => l0)))).
  split; [|apply wplan_run]. intros [|[|g]]; exact E.
Qed.

(** All reads are answered. *)
Example C70_all : option_map (fun w => map (fun t => map (fun g => gdone (w_grid w g) t) [0; 1; 2]) [0; 1; 2; 3]) (demo_world true 2500 1)
  = Some (map (map (map (fun v => Some (Some v)))) [[[46; 0]; [102]; [101]]; [[46]; [100]; [102]]; [[46]; [101; 102]; []]; [[23]; []; [102]]]).
Proof. vm_compute. reflexivity. Qed.

(** A reachable state where a thread has locked [mpiLock] for one grid and a thread of the same process waits for it with
    another grid; without THREADSAFE_MPI both would be in MPI functions. *)
Definition demo_cs := kcfgs 2 demo_rk demo_kinds demo_reads.
Definition demo_pairs : list (nat * nat) := [(0, 2); (2, 0); (1, 3); (3, 1)].
Example C70_waits : match demo_world true 130 3 with
  | Some w => existsb (fun '(a, b) => inside (demo_cs 0) (w_grid w 0) a && needs (demo_cs 1) (w_grid w 1) b
                                   || inside (demo_cs 1) (w_grid w 1) a && needs (demo_cs 0) (w_grid w 0) b) demo_pairs
  | None => false end = true.
Proof. vm_compute. reflexivity. Qed.
Example C70_unlocked : match demo_world false 130 5 with
  | Some w => existsb (fun '(a, b) => inside (demo_cs 0) (w_grid w 0) a && inside (demo_cs 1) (w_grid w 1) b) demo_pairs
  | None => false end = true.
Proof. vm_compute. reflexivity. Qed.

(** The hypotheses of C70_finishes: the same without the third grid. *)
Definition demo_reads2 (t : nat) : list (nat * list nat) := filter (fun x => fst x <? 2) (demo_reads t).
Example demo_set2 : all_set 2 2 demo_rk demo_kinds demo_reads2.
Proof.
  destruct demo_set as [H _]. split; [|intros [|[|[|[|t]]]]; repeat constructor].
  intros [|[|g]]; [specialize (H 0)|specialize (H 1)|specialize (H (S (S g)))]; cbn [kset demo_kinds] in *.
  - destruct H as (H1 & H2 & H3 & H4 & H5 & H6 & H7 & H8 & _). repeat (split; [assumption|]). intros [|[|[|[|t]]]]; repeat constructor.
  - destruct H as (H1 & H2 & H3 & H4 & H5 & H6 & H7 & _). repeat (split; [assumption|]). intros [|[|[|[|t]]]]; repeat constructor.
  - destruct H as (H1 & H2 & H3 & H4 & H5 & H6 & H7 & H8 & _). repeat (split; [assumption|]). intros [|[|[|[|t]]]]; repeat constructor.
Qed.
Example C70_no_poll : (forall g, g < 2 -> kpolls (demo_kinds g) = false) /\ (forall t, 4 <= t -> demo_reads2 t = []).
Proof. split; [intros [|[|g]] H; auto; lia|]. intros [|[|[|[|t]]]] H; auto; lia. Qed.
