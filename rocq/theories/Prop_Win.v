(** * C89: what is read through a window is what was stored last, under the memory rules of MPI *)
From Verif Require Import WinModel WinSpec WinFacts.
Local Open Scope Z_scope.

(** Windows with the unified memory model: any programs of any processes, any interleaving. *)
Theorem C89_unified_partial : forall m prog es s tr, run true (Sys (created m) prog) es = Some (s, tr) -> coherent m tr.
Proof. exact unified_all. Qed.
(** Both memory models: any numbers of processes, dictionary entries and epochs of startTransfer, endTransfer and deleteBlock, any
    values, any interleaving, updates reaching the other copy at any time.  All accesses to the dictionary and its mutexes are defined
    and return what was stored last (the mutexes being initialised before the window is created, other than in the code). *)
Theorem C89_dictionary_partial : forall unified m epochs es s tr,
  run unified (Sys (created m) (dict_prog epochs)) es = Some (s, tr) -> coherent m tr.
Proof. exact dictionary. Qed.
(** Both memory models: blocks of a distributed full grid that are in memory when the window is created. *)
Theorem C89_full_partial : forall unified m ops es s tr, (forall p x v, ~ In (Fill x v) (ops p)) ->
  run unified (Sys (created m) (block_prog ops)) es = Some (s, tr) -> coherent m tr.
Proof. exact full_blocks. Qed.

(** Three processes at the dictionary of process 0: process 1 gets the mutex of entry 2, process 0 queues behind it and continues after
    the wait, in the separate model; updates reach the other copy where [Flow] says. *)
Definition ex_epochs (p : nat) : list epoch :=
  match p with
  | 0%nat => [StartQueue 0 2 0; StartLater 0 2 (fun x => 7); EndTransfer 0 2 0]
  | 1%nat => [StartNow 0 2 1 (fun x => 5); EndTransfer 0 2 1]
  | 2%nat => [DeleteNow 0 3 2 (fun x => 4)]
  | _ => []
  end.
Definition ex_events : list event :=
  repeat (Run 1) 11 ++ [Run 0] ++ [Flow 0 14] ++ repeat (Run 0) 2 ++ repeat (Run 2) 6 ++ [Flow 0 19; Flow 0 15] ++ repeat (Run 2) 6 ++
  repeat (Run 1) 3 ++ repeat (Run 0) 5 ++ [Flow 0 10] ++ repeat (Run 0) 8.
Definition vals (tr : list (act * reply)) : list (option Z) :=
  filter (fun v => match v with Some _ => true | None => false end) (map (fun e => r_val (snd e)) tr).
Example C89_ex : match run false (Sys (created (fun _ _ => -1)) (dict_prog ex_epochs)) ex_events with
  | Some (_, tr) => length tr = 42%nat /\ forallb (fun e => r_ok (snd e)) tr = true /\
      vals tr = [Some (-1); Some (-1); Some (-1); Some (-1); Some (-1);  Some 1;  Some (-1); Some (-1); Some (-1); Some (-1); Some (-1); Some 2;
                 Some 0;  Some 5; Some 5; Some 5; Some 5;  Some 0]
  | None => False
  end.
Proof. vm_compute. auto. Qed.

(** Refuted for the blocks of a distributed cache: process 0 stores block 7 in its slot 3 (nothing in its later program touches its own
    part of the window); when process 1 fetches the slot the access is undefined in the separate model, the public copy being the old one.
    This holds however long it waits, if the implementation moves no update by itself. *)
Theorem C89_block_refuted : forall wait, exists ops es s tr, (forall p, (1 < p)%nat -> ops p = []) /\
  es = repeat (Run 0) (1 + wait) ++ repeat (Run 1) 2 /\ run false (Sys (created (fun _ _ => 0)) (block_prog ops)) es = Some (s, tr) /\
  In (Store 0 3 7, Reply None true) tr /\ In (Get 1 0 3, Reply (Some 0) false) tr /\ ~ coherent (fun _ _ => 0) tr.
Proof. exact block_undefined. Qed.
(** Refuted for the mutexes: they are initialised by a store after the window has been created.  Even when all processes wait until that
    is done, in the separate model the first acquire by another process is undefined. *)
Theorem C89_mutex_refuted : exists epochs es s tr,
  run false (Sys (created (fun _ _ => -1)) (fun p => (if p =? 0 then init_mutexes 0 1 else []) ++ dict_prog epochs p)%nat) es = Some (s, tr) /\
  (exists tr', tr = (Store 0 (mutex 0) unlocked, Reply None true) :: tr' /\ forall a r, In (a, r) tr' -> forall x v, a <> Store 0 (mutex x) v) /\
  In (Swap 1 0 (mutex 0) 1, Reply (Some (-1)) false) tr /\ ~ coherent (fun _ _ => -1) tr.
Proof. exact mutex_undefined. Qed.

Print Assumptions C89_unified_partial.
Print Assumptions C89_dictionary_partial.
Print Assumptions C89_full_partial.
Print Assumptions C89_block_refuted.
Print Assumptions C89_mutex_refuted.
