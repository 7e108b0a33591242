(** * Reading blocks: io/netcdfreader.h *)
From Verif Require Export Base.

Section Reader.
  Context {V : Type}.

  (** One variable of a netCDF file: extents (C order) and content. *)
  Record file := File { f_size : list nat; f_val : list nat -> V }.

  (** External: the hyperslab is inside the variable.  If it is not, the netCDF
      library returns an error (NC_EINVALCOORDS/NC_EEDGE) and writes nothing;
      the code ignores the return value. *)
  Fixpoint slab_ok (size off cnt : list nat) : bool :=
    match size, off, cnt with
    | [], [], [] => true
    | s :: size', o :: off', c :: cnt' => (o + c <=? s) && slab_ok size' off' cnt'
    | _, _, _ => false
    end.

  (** A sequence of stores. *)
  Fixpoint apply_writes (m : mem V) (ws : list (nat * V)) : outcome (mem V) :=
    match ws with
    | [] => Ok m
    | (p, v) :: ws' => do m' <- mem_wr m p (Some v); apply_writes m' ws'
    end.

  Fixpoint dot (l m : list nat) : nat :=
    match l, m with
    | a :: l', b :: m' => a * b + dot l' m'
    | _, _ => 0
    end.

  (** External: [nc_get_varm_T(file, var, start, count, NULL, imap, buffer)] of the
      netCDF library, called at io/netcdfreader.h lines 245, 256, 267, 278, 289:
      the element at [start + k] is stored at [buffer + sum imap*k].  The
      conversion to [T] is part of [f_val]. *)
  Definition nc_get_varm (f : file) (start cnt imap : list nat) (base : nat)
      (m : mem V) : outcome (mem V) :=
    if slab_ok (f_size f) start cnt
    then apply_writes m
           (map (fun k => (base + dot imap k, f_val f (ix_add start k))) (box cnt))
    else Ok m.

  (** External: [nc_get_vara] (io/netcdfreader.h line 301): elements are stored
      one after the other. *)
  Definition nc_get_vara (f : file) (start cnt : list nat) (base : nat)
      (m : mem V) : outcome (mem V) :=
    if slab_ok (f_size f) start cnt
    then apply_writes m
           (map (fun '(j, k) => (base + j, f_val f (ix_add start k)))
                (combine (seq 0 (length (box cnt))) (box cnt)))
    else Ok m.

  (** [actSize] of [getBlock], io/netcdfreader.h lines 202-208. *)
  Fixpoint act_size (fsize off size : list nat) : list nat :=
    match fsize, off, size with
    | s :: fsize', o :: off', b :: size' =>
        (if s <? o + b then s - o else b) :: act_size fsize' off' size'
    | _, _, _ => []
    end.

  (** [imap] of [getBlock], io/netcdfreader.h lines 211-214, for at least one
      dimension. *)
  Fixpoint imap_of (size : list nat) : list nat :=
    match size with
    | [] => []
    | _ :: rest =>
        let r := imap_of rest in
        match r, rest with
        | m1 :: _, s1 :: _ => m1 * s1 :: r
        | _, _ => [1]
        end
    end.

  (** [doMapping] of [getVar<void>], io/netcdfreader.h lines 304-307. *)
  Fixpoint lists_eqb (l m : list nat) : bool :=
    match l, m with
    | [], [] => true
    | a :: l', b :: m' => (a =? b) && lists_eqb l' m'
    | _, _ => false
    end.
  Definition do_mapping (size blockSize : list nat) : bool :=
    negb (lists_eqb (tl size) (tl blockSize)).

  (** Initial value of [indexBuf], io/netcdfreader.h lines 323-327. *)
  Fixpoint index_buf_loop (acc : Z) (size blockSize : list nat) : Z :=
    match size, blockSize with
    | s :: size', b :: blockSize' =>
        index_buf_loop (acc * Z.of_nat b + (Z.of_nat s - 1)) size' blockSize'
    | _, _ => acc
    end.
  Definition index_buf_init (size blockSize : list nat) : Z :=
    match size with
    | s0 :: _ => index_buf_loop (Z.of_nat s0 - 1) (tl size) (tl blockSize)
    | [] => 0
    end.

  (** The inner carry loop, io/netcdfreader.h lines 339-345.  All lists are
      reversed: the heads belong to dimension [i] of the C++ loop.  [indexBuf] is
      a [size_t]; it could only wrap when the outer loop has ended, so it is a
      plain integer here. *)
  Fixpoint carry (size imap : list nat) (pos : list Z) (ib : Z) {struct size}
    : list Z * Z :=
    match size, imap, pos with
    | s :: size', mi :: ((mj :: _) as imap'), p :: q :: pos'' =>
        if (p <? 0)%Z then
          let '(tl', ib') := carry size' imap' (q - 1 :: pos'')%Z
                               (ib - Z.of_nat mj + Z.of_nat mi * Z.of_nat s)%Z in
          ((Z.of_nat s - 1)%Z :: tl', ib')
        else (pos, ib)
    | _, _, _ => (pos, ib)
    end.

  (** The outer loop, io/netcdfreader.h lines 330-346; [n] is [indexFile + 1],
      [rpos] is [pos] reversed.  The [memcpy] moves one cell. *)
  Fixpoint mapping_loop (rsize rimap : list nat) (base n : nat) (ib : Z)
      (rpos : list Z) (m : mem V) : outcome (mem V) :=
    match n with
    | 0 => Ok m
    | S fi =>
        if (Z.of_nat fi <? ib)%Z then
          do v <- mem_rd m (base + fi);
          do m' <- mem_wr m (base + Z.to_nat ib) v;
          match rpos with
          | [] => Ub
          | p :: rpos' =>
              let '(rpos2, ib2) := carry rsize rimap ((p - 1)%Z :: rpos') (ib - 1)%Z in
              mapping_loop rsize rimap base fi ib2 rpos2 m'
          end
        else Ok m
    end.

  (** [getVar<void>], io/netcdfreader.h lines 297-347. *)
  Definition get_var_void (f : file) (off size blockSize imap : list nat)
      (base : nat) (m : mem V) : outcome (mem V) :=
    do m1 <- nc_get_vara f off size base m;
    if do_mapping size blockSize then
      mapping_loop (rev size) (rev imap) base (volume size)
        (index_buf_init size blockSize)
        (rev (map (fun s => Z.of_nat s - 1)%Z size)) m1
    else Ok m1.

  (** [getBlock<T>], io/netcdfreader.h lines 195-218.  [opaque] selects
      [T = void] (array and struct types) or a built-in type.  A variable
      without dimensions writes [imap[-1]]. *)
  Definition get_block (opaque : bool) (f : file) (off size : list nat)
      (base : nat) (m : mem V) : outcome (mem V) :=
    match f_size f with
    | [] => Ub
    | _ =>
        let act := act_size (f_size f) off size in
        if opaque then get_var_void f off act size (imap_of size) base m
        else nc_get_varm f off act (imap_of size) base m
    end.
End Reader.
Arguments file V : clear implicits.
