(** * What releasing exactly once means *)
From Verif Require Export LedgerModel.

(** A history, the last event first, in which everything is allocated before it is freed and freed at most once. *)
Inductive proper : list ev -> Prop :=
| proper_nil : proper []
| proper_alloc x t : proper t -> ~ In (Alloc x) t -> proper (Alloc x :: t)
| proper_free x t : proper t -> In (Alloc x) t -> ~ In (Free x) t -> proper (Free x :: t).
Definition all_freed (log : list ev) : Prop := forall x, In (Alloc x) log -> In (Free x) log.
Definition live (x : nat) (log : list ev) : Prop := In (Alloc x) log /\ ~ In (Free x) log.
(** Some pointer or handle of some level on some domain. *)
Definition held (n : nat) (s : cst) (x : nat) : Prop :=
  exists l d f, l < c_count s /\ d < n /\ o_ptr (c_lv s l d) f = Some x.

(** The largest level first. *)
Definition largest_first (h : list call) : Prop :=
  match h with [] => True | q :: r => forall q', In q' r -> q_level q' <= q_level q end.
(** Every level at most once. *)
Definition no_reopen (h : list call) : Prop := NoDup (map q_level h).
(** The call [i] creates the window of a full grid, or registers the first receiver of a cache. *)
Definition critical (k : kind) (i : nat) : Prop :=
  exists m, nth_error (init k) i = Some (New First FWin m) \/ nth_error (init k) i = Some (New First FTag1 m).
Definition lucky (k : kind) (q : call) : Prop := forall i, critical k i -> q_fail q i 0 = false.
(** No call fails. *)
Definition calm (l : nat) : call := Call l (fun _ _ => false) (fun _ _ => false).
(** What the readers on a domain use after an open, and whether it is the same for all domains ([true]) or the domain's own. *)
Definition manager_uses : list (field * bool) := [(FIndex, false); (FRef, false); (FLocks, false)].
Definition uses (k : kind) : list (field * bool) :=
  match k with
  | KFull => [(FData, true)]
  | KFullDist m nc => [(FData, true); (FCache, false)] ++ manager_uses ++
      match m with MNo => [] | MThread => [(FTag, true); (FSendRecv, true)] | MWin => [(FWinMutex, true); (FWin, true)] end ++
      (if nc then [(FNumaMgrs, true)] else [])
  | KCache => [(FReader, false); (FCache, true)] ++ manager_uses
  | KCacheDist m nc => [(FReader, false); (FCache, true)] ++ manager_uses ++
      match m with
      | MNo => []
      | MThread => (FDict, true) :: map (fun f => (f, true)) [FMgrs; FMutexes; FTag1; FTag2; FTag3; FTag4; FInfo; FBlock]
      | MWin => (FDict, true) :: map (fun f => (f, true)) [FDictWinMutex; FDictWin; FMpiMutex; FCacheWinMutex; FCacheWin]
      end ++ (if nc then [(FNumaMgrs, true)] else [])
  | KPassThrough => [(FReader, false); (FBuf, false)]
  end.
(** Level [l] is complete: all domains have what they use. *)
Definition complete (n : nat) (k : kind) (s : cst) (l : nat) : Prop :=
  forall f shared d, In (f, shared) (uses k) -> d < n -> exists x, o_ptr (c_lv s l d) f = Some x /\
    forall d', d' < n -> d' <> d -> (o_ptr (c_lv s l d') f = Some x <-> shared = true).
(** The windows and the memory that the processes reach through them; the receivers and the blocks or dictionary
    they read when a request arrives (the array of cache managers is deleted before the receivers; no request arrives then, C68). *)
Definition exposes (k : kind) : list (field * field) :=
  match k with
  | KFullDist MWin _ => [(FWin, FData)]
  | KFullDist MThread _ => [(FTag, FData)]
  | KCacheDist MWin _ => [(FDictWin, FDict); (FCacheWin, FCache)]
  | KCacheDist MThread _ => [(FTag1, FDict); (FTag2, FCache); (FTag3, FDict); (FTag4, FDict)]
  | _ => []
  end.
(** [x] is freed and [y] later (the last event comes first). *)
Definition freed_before (x y : nat) (log : list ev) : Prop := exists a b c, log = a ++ Free y :: b ++ Free x :: c.
