(** Model of allocation in stabby-abi/src/alloc: layout arithmetic, prefixed allocations
    and the two allocator adapters.  Sizes and addresses are [N]; [usize] arithmetic wraps
    at [2^64] (a 64-bit target built without overflow checks; with the checks the same
    inputs panic).  The null pointer is address 0. *)
From Coq Require Import NArith List Bool.
Import ListNotations.
Local Open Scope N_scope.

(** alloc/mod.rs:56-63 [Layout]. *)
Record lay := Lay { lsize : N; lalign : N }.

(** [usize] wrap-around on a 64-bit target (arithmetic of alloc/mod.rs:76-106). *)
Definition usz (x : N) : N := x mod 2 ^ 64.

(** alloc/mod.rs:74-82 [Layout::array::<T>(n)] for [T] of size [s], alignment [a]. *)
Definition lay_array (s a n : N) : lay := Lay (usz (s * n)) a.

(** alloc/mod.rs:101-106 [Layout::realign]. *)
Definition realign (l : lay) (na : N) : lay :=
  Lay (usz (lsize l + (na - lsize l mod na) * (if N.eqb (lsize l mod na) 0 then 0 else 1))) na.

(** alloc/mod.rs:84-91 [Layout::concat]. *)
Definition concat (l o : lay) : lay :=
  realign (Lay (usz (lsize l + lsize o)) (lalign l))
          (if lalign l <? lalign o then lalign o else lalign l).

(** core [ptr.align_offset(a)], used at alloc/mod.rs:96,337: distance to the next multiple. *)
Definition align_offset (p a : N) : N := if N.eqb (p mod a) 0 then 0 else a - p mod a.

(** alloc/mod.rs:92-99 [Layout::next_matching]. *)
Definition next_matching (l : lay) (p : N) : N := p + align_offset p (lalign l).

(** ** Prefixed allocations, alloc/mod.rs:227-401.
    [psz]/[pal]: size and alignment of [AllocPrefix<Alloc>]; [s]/[a]: of [T]. *)

(** alloc/mod.rs:241-250 [AllocPrefix::skip_to]. *)
Definition skip_to (psz a : N) : N :=
  if N.eqb (psz mod a) 0 then psz else psz + a - psz mod a.

(** alloc/mod.rs:361-362 (and 378-380): the layout asked from the allocator. *)
Definition array_layout (psz pal s a n : N) : lay :=
  Lay (lsize (concat (Lay psz pal) (lay_array s a n))) pal.

(** alloc/mod.rs:227-239: the words of an [AllocPrefix] relevant here. *)
Record prefix := Pfx { p_strong : N; p_weak : N; p_capacity : N; p_origin : N }.

(** alloc/mod.rs:330-352 [AllocPtr::init]: the data pointer and the prefix written;
    the prefix sits at [prefix_ptr] of that pointer. *)
Definition ptr_init (psz a ptr capacity : N) : N * prefix :=
  let shifted := ptr + psz in
  (shifted + align_offset shifted a, Pfx 1 1 capacity ptr).

(** alloc/mod.rs:306-308 [prefix_ptr]. *)
Definition prefix_ptr (psz data : N) : N := data - psz.

(** alloc/mod.rs:360-365 [alloc_array]; [ans] is what [alloc.alloc(layout)] answers. *)
Definition ptr_alloc (psz a n ans : N) : option (N * prefix) :=
  if N.eqb ans 0 then None else Some (ptr_init psz a ans n).

(** alloc/mod.rs:372-391 [realloc]: the arguments handed to [alloc.realloc]:
    pointer, previous layout, new size. *)
Definition ptr_realloc_args (psz pal s a prev new data : N) : N * lay * N :=
  (prefix_ptr psz data, array_layout psz pal s a prev,
   lsize (concat (Lay psz pal) (lay_array s a new))).

(** alloc/mod.rs:372-391: the result, [ans] being the answer of [alloc.realloc]. *)
Definition ptr_realloc (psz a new ans : N) : option (N * prefix) :=
  if N.eqb ans 0 then None else Some (ptr_init psz a ans new).

(** alloc/mod.rs:395-397 [free]: the pointer handed to [alloc.free]. *)
Definition ptr_free_arg (p : prefix) : N := p_origin p.

(** ** [RustAlloc], alloc/allocators/rust_alloc.rs *)

(** Result of a call: a pointer, null, or an access the code may not make (a read or
    write outside live memory, or [dealloc]/[realloc] with a pointer/layout pair which the
    global allocator did not give out) (calls of rust_alloc.rs:103-124 and libc_alloc.rs:55-97). *)
Inductive outcome := Null | Ptr (p : N) | Fault.

(** The global allocator's live blocks with their layouts, and the [RustAllocPrefix]es in
    memory, by address. Only the layout of a prefix is kept: [VTABLE] (rust_alloc.rs:88-91)
    is constant, so calling through it is calling these functions. *)
Record gheap := GH { live : list (N * lay); hdr : N -> option lay }.

(** rust_alloc.rs:17-20: [size_of::<RustAllocPrefix>()]: two words of layout, two of vtable. *)
Definition HSZ : N := 32.
(** rust_alloc.rs:17-20: [Layout::of::<RustAllocPrefix>()]. *)
Definition hlay : lay := Lay HSZ 8.

(** Is [x] a power of two (core [Layout::from_size_align]'s condition)? (called at rust_alloc.rs:24). *)
Definition is_pow2 (x : N) : bool := negb (N.eqb x 0) && N.eqb (N.land x (x - 1)) 0.

(** core [Layout::from_size_align], rust_alloc.rs:24,50: power-of-two alignment, rounded-up
    size at most [isize::MAX]. *)
Definition valid_lay (l : lay) : bool :=
  is_pow2 (lalign l) && (lsize l <=? 2 ^ 63 - lalign l).

(** Writing a 32-byte prefix at [k]: prefixes overlapping it are destroyed (rust_alloc.rs:32-37, 64-67). *)
Definition hdr_write (k : N) (l : lay) (h : N -> option lay) : N -> option lay :=
  fun k' => if N.eqb k' k then Some l
            else if (k <? k' + HSZ) && (k' <? k + HSZ) then None else h k'.

(** Equality of blocks (for rust_alloc.rs:60, 82). *)
Definition block_eqb (x y : N * lay) : bool :=
  N.eqb (fst x) (fst y) && N.eqb (lsize (snd x)) (lsize (snd y)) &&
  N.eqb (lalign (snd x)) (lalign (snd y)).

(** A block leaves the live list (rust_alloc.rs:60, 82). *)
Fixpoint remove_block (b : N * lay) (l : list (N * lay)) : list (N * lay) :=
  match l with
  | nil => nil
  | x :: r => if block_eqb b x then r else x :: remove_block b r
  end.

(** rust_alloc.rs:30: the shift between block and returned pointer. *)
Definition shift (l : lay) : N := N.max (lalign l) HSZ.

(** rust_alloc.rs:22-28: the layout asked from the global allocator, if any. *)
Definition rust_alloc_ask (req : lay) : option lay :=
  let r := concat hlay req in if valid_lay r then Some r else None.

(** rust_alloc.rs:22-39 [alloc]; [ans]: the global allocator's answer (0: failure). The
    prefix is written through [ans + shift] whatever [ans] is. *)
Definition rust_alloc (req : lay) (ans : N) (g : gheap) : outcome * gheap :=
  let r := concat hlay req in
  if valid_lay r then
    if N.eqb ans 0 then (Fault, g)
    else let ret := ans + shift r in
         (Ptr ret, GH ((ans, r) :: live g) (hdr_write (ret - HSZ) r (hdr g)))
  else (Null, g).

(** rust_alloc.rs:108-112 [IAlloc::free] then 71-87 [free]. *)
Definition rust_free (p : N) (g : gheap) : outcome * gheap :=
  match hdr g (p - HSZ) with
  | None => (Fault, g)
  | Some l =>
      let b := (p - shift l, l) in
      if existsb (block_eqb b) (live g)
      then (Null, GH (remove_block b (live g)) (hdr g))
      else (Fault, g)
  end.

(** rust_alloc.rs:42-60: the address, layout and new layout of the call to the global
    [realloc], if any. *)
Definition rust_realloc_ask (p new_size : N) (g : gheap) : option (N * lay * lay) :=
  match hdr g (p - HSZ) with
  | None => None
  | Some l => if valid_lay l
              then Some (p - shift l, l, Lay (lsize (concat hlay (Lay new_size (lalign l)))) (lalign l))
              else None
  end.

(** rust_alloc.rs:114-123 [IAlloc::realloc] then 40-70 [realloc]; [ans]: the answer of the
    global [realloc], whose block then has [requested.size] and the previous alignment
    (which is what the new prefix records, as the recorded alignment is at least 8). *)
Definition rust_realloc (p : N) (new_size ans : N) (g : gheap) : outcome * gheap :=
  match hdr g (p - HSZ) with
  | None => (Fault, g)
  | Some l =>
      let b := (p - shift l, l) in
      if valid_lay l then
        let r := concat hlay (Lay new_size (lalign l)) in
        if existsb (block_eqb b) (live g) then
          if N.eqb ans 0 then (Fault, g)
          else let ret := ans + shift l in
               (Ptr ret, GH ((ans, Lay (lsize r) (lalign l)) :: remove_block b (live g))
                            (hdr_write (ret - HSZ) r (hdr g)))
        else (Fault, g)
      else (Null, g)
  end.

(** ** [LibcAlloc], alloc/allocators/libc_alloc.rs, and the default [IAlloc::realloc] *)

(** The C heap: live blocks with their sizes, and the bytes (used by libc_alloc.rs:55-97). *)
Record cheap := CH { cblocks : list (N * N); cmem : N -> N }.

(** [n] bytes at [p] lie in one live block (for libc_alloc.rs:86-90). *)
Definition in_block (h : cheap) (p n : N) : bool :=
  existsb (fun b => (fst b <=? p) && (p + n <=? fst b + snd b)) (cblocks h).

(** core [copy_nonoverlapping]: [None] if it leaves the live blocks (called at alloc/mod.rs:139, libc_alloc.rs:86-90). *)
Definition copy (h : cheap) (src dst n : N) : option cheap :=
  if in_block h src n && in_block h dst n then
    Some (CH (cblocks h)
             (fun a => if (dst <=? a) && (a <? dst + n) then cmem h (src + (a - dst)) else cmem h a))
  else None.

(** The block at [p] leaves the heap (libc_alloc.rs:68-71). *)
Definition cfree (h : cheap) (p : N) : cheap :=
  CH (filter (fun b => negb (N.eqb (fst b) p)) (cblocks h)) (cmem h).

(** libc [posix_memalign]: [ans] is its answer ([None]: an error, the pointer stays null) (called at libc_alloc.rs:62, 83). *)
Definition memalign (size : N) (ans : option N) (h : cheap) : option N * cheap :=
  match ans with
  | None => (None, h)
  | Some a => (Some a, CH ((a, size) :: cblocks h) (cmem h))
  end.

(** libc_alloc.rs:56-67 [alloc]: on an error the pointer is the initial null one. *)
Definition libc_alloc (l : lay) (ans : option N) (h : cheap) : outcome * cheap :=
  if N.eqb (lsize l) 0 then (Null, h)
  else match memalign (lsize l) ans h with
       | (Some a, h') => (Ptr a, h')
       | (None, h') => (Null, h')
       end.

(** libc_alloc.rs:19-28 and 62: the arguments (size, alignment) reaching
    [libc::aligned_malloc] on Windows: the shim's parameters are (size, align), the call
    passes (align, size). *)
Definition windows_malloc_args (l : lay) : N * N :=
  let shim (size align : N) := (size, align) in shim (lalign l) (lsize l).

(** libc [realloc(ptr, new)]: answer [Some a]: the block becomes [(a, new)] with the common
    prefix of the content; [None]: nothing happens (called at libc_alloc.rs:79). *)
Definition c_realloc (p new : N) (ans : option N) (h : cheap) : option N * cheap :=
  match ans with
  | None => (None, h)
  | Some a =>
      match find (fun b => N.eqb (fst b) p) (cblocks h) with
      | None => (None, h)
      | Some (_, old) =>
          (Some a, CH ((a, new) :: cblocks (cfree h p))
             (fun x => if (a <=? x) && (x <? a + N.min old new) then cmem h (p + (x - a)) else cmem h x))
      end
  end.

(** libc_alloc.rs:72-96 [realloc]; [a1]: answer of [realloc], [a2]: of [posix_memalign]. *)
Definition libc_realloc (p : N) (prev : lay) (new : N) (a1 a2 : option N) (h : cheap) : outcome * cheap :=
  if N.eqb new 0 then (Null, h)
  else
    let '(np, h1) := if lalign prev <=? 8 then c_realloc p new a1 h else (None, h) in
    match np with
    | Some a => (Ptr a, h1)
    | None =>
        match memalign new a2 h1 with
        | (None, h2) => (Null, h2)
        | (Some a, h2) =>
            match copy h2 p a (lsize prev) with
            | None => (Fault, h2)
            | Some h3 => (Ptr a, cfree h3 p)
            end
        end
    end.

(** alloc/mod.rs:132-144 the default [IAlloc::realloc], on an allocator whose [alloc]
    answers [ans] from the same kind of heap. *)
Definition default_realloc (p : N) (prev : lay) (new : N) (ans : option N) (h : cheap) : outcome * cheap :=
  match memalign new ans h with
  | (None, h2) => (Null, h2)
  | (Some a, h2) =>
      match copy h2 p a (lsize prev) with
      | None => (Fault, h2)
      | Some h3 => (Ptr a, cfree h3 p)
      end
  end.
