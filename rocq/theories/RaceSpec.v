(** * What a data race is *)
From Verif Require Import CountModel OnceFacts.
From Verif Require Export RaceModel ConcFacts.

(** Two accesses of the same place conflict unless both only read, or both are made under the mutex of the entry. *)
Definition conflict (x y : place * manner) : Prop :=
  fst x = fst y /\ match snd x, snd y with Rd, Rd => False | Inside, Inside => False | _, _ => True end.
Definition actor {V} (a : act (V := V)) : owner := match a with AThr t _ => Usr t | ACom r _ => Com r end.
(** Two accesses which could be made next, in any order, by different threads. *)
Definition race {V} (c : cfg V) (s : st V) (a b : act) : Prop :=
  actor a <> actor b /\ exists x y, In x (about c s a) /\ In y (about c s b) /\ conflict x y.

(** The two states differ at most at place [p]. *)
Record same_but {V} (p : place) (s1 s2 : st V) : Prop := SameBut {
  sb_lock : forall k, s_lock s2 k = s_lock s1 k;
  sb_list : forall r d, p <> Index r d -> s_list s2 r d = s_list s1 r d;
  sb_data : forall r o x, p <> Block r o -> s_data s2 r o x = s_data s1 r o x;
  sb_dict : forall b, p <> Entry b -> s_dict s2 b = s_dict s1 b;
  sb_ireq : forall r q, s_ireq s2 r q = s_ireq s1 r q;
  sb_irep : forall r q, s_irep s2 r q = s_irep s1 r q;
  sb_breq : forall r q, s_breq s2 r q = s_breq s1 r q;
  sb_brep : forall r q, s_brep s2 r q = s_brep s1 r q;
  sb_upd : forall r, s_upd s2 r = s_upd s1 r;
  sb_thr : forall t, s_thr s2 t = s_thr s1 t;
  sb_com : forall r, s_com s2 r = s_com s1 r
}.
(** The content of the place is the same. *)
Definition unchanged {V} (p : place) (s1 s2 : st V) : Prop :=
  match p with
  | Block r o => forall x, s_data s2 r o x = s_data s1 r o x
  | Index r d => s_list s2 r d = s_list s1 r d
  | Entry b => s_dict s2 b = s_dict s1 b
  end.

(** ** Full grids *)
Definition urace {W} (c : fcfg W) (s : fst_ W) (t u : nat) : Prop :=
  t <> u /\ exists x y, In x (uabout c s t) /\ In y (uabout c s u) /\ conflict x y.
Record usame_but {W} (p : place) (s1 s2 : fst_ W) : Prop := USameBut {
  ub_lock : forall k, u_lock s2 k = u_lock s1 k;
  ub_list : forall r d, p <> Index r d -> u_list s2 r d = u_list s1 r d;
  ub_data : forall r o x, p <> Block r o -> u_data s2 r o x = u_data s1 r o x;
  ub_req : forall r q, u_req s2 r q = u_req s1 r q;
  ub_rep : forall r q, u_rep s2 r q = u_rep s1 r q;
  ub_thr : forall t, u_thr s2 t = u_thr s1 t
}.
Definition uunchanged {W} (p : place) (s1 s2 : fst_ W) : Prop :=
  match p with
  | Block r o => forall x, u_data s2 r o x = u_data s1 r o x
  | Index r d => u_list s2 r d = u_list s1 r d
  | Entry _ => True
  end.
(** What the step of an action accesses: communication threads access neither caches nor lists. *)
Definition uabout_act {W} (c : fcfg W) (s : fst_ W) (a : uact) : list (place * manner) :=
  match a with UThr t _ => uabout c s t | UCom _ _ => [] end.

(** ** The flag of [Once] and the counters: two accesses by different threads, one of them a write. *)
Definition orace (s : ost) (t u : nat) : Prop :=
  t <> u /\ oabout s t = Some true /\ oabout s u <> None.
Definition nrace (ts : bool) (s : CountModel.st) (t u : nat) : Prop :=
  t <> u /\ exists ch ch' n w, nabout ts s t ch = Some (n, true) /\ nabout ts s u ch' = Some (n, w).
(** No thread queries the counters. *)
Definition only_reads (prog : nat -> list op) : Prop := forall t c, ~ In (Query c) (prog t).
