(** * What the communicator of a grid and its key have to do *)
From Verif Require Export CommModel.

(** The communicators the grid takes over one after the other and the size after them, for a grid which starts with
    size [sz]: a failing [MPI_Comm_dup] takes nothing over, the reset takes [MPI_COMM_SELF] over if there are other
    processes. *)
Fixpoint taken (group : comm -> nat * nat) (sz : nat) (l : list op) : list comm * nat :=
  let set c r l' :=
    match r with
    | RDup => taken group sz l'
    | ROk => let '(cs, z) := taken group (snd (group c)) l' in (c :: cs, z)
    | _ => let '(cs, z) := taken group sz l' in (c :: cs, z)
    end in
  match l with
  | [] => ([], sz)
  | OTags _ :: l' => taken group sz l'
  | OSet c r :: l' => set c r l'
  | OOff r :: l' => if sz =? 1 then taken group sz l' else set CSelf r l'
  end.

(** The calls of MPI: each communicator is duplicated once, the duplicate is freed before the next one is made, the last
    one at the end, after a barrier if there are other processes. *)
Fixpoint history (i : nat) (cs : list comm) (others : bool) : list call :=
  match cs with
  | [] => []
  | [c] => KDup c i :: (if others then [KBarrier (CDup i)] else []) ++ [KFree i]
  | c :: cs' => KDup c i :: KFree i :: history (S i) cs' others
  end.

Definition dup_fails (o : op) : bool := match o with OSet _ RDup | OOff RDup => true | _ => false end.
Definition makes (o : op) : bool := match o with OSet _ RDup => false | OSet _ _ => true | _ => false end.
(** No [MPI_Comm_dup] fails after another one succeeded. *)
Definition safe (l : list op) : Prop :=
  forall a o b, l = a ++ o :: b -> dup_fails o = true -> existsb makes a = false.
(** Nothing fails. *)
Definition calm (l : list op) : Prop := forall o, In o l -> match o with OSet _ r | OOff r => r = ROk | OTags _ => True end.

(** The identifiers a thread stored last in a grid since the grid was created; 0 and 0 if none. *)
Fixpoint stored (l : list kop) (g t : nat) (v : nat * nat) : nat * nat :=
  match l with
  | [] => v
  | PReg g' t' ids :: l' => stored l' g t (if ((g' =? g) && (t' =? t))%bool then ids else v)
  | PClose g' :: l' => stored l' g t (if g' =? g then (0, 0) else v)
  | PNew _ _ :: l' => stored l' g t v
  end.
(** The grids are used properly: created once, closed once, used in between; [op] lists the open ones.  Never more
    than [kmax] are open. *)
Fixpoint proper (kmax : nat) (open : list nat) (l : list kop) : Prop :=
  match l with
  | [] => True
  | PNew g _ :: l' => ~ In g open /\ length open < kmax /\ proper kmax (g :: open) l'
  | PReg g _ _ :: l' => In g open /\ proper kmax open l'
  | PClose g :: l' => In g open /\ proper kmax (remove Nat.eq_dec g open) l'
  end.
(** The grids open after [l]. *)
Fixpoint opens (open : list nat) (l : list kop) : list nat :=
  match l with
  | [] => open
  | PNew g _ :: l' => opens (g :: open) l'
  | PReg _ _ _ :: l' => opens open l'
  | PClose g :: l' => opens (remove Nat.eq_dec g open) l'
  end.
