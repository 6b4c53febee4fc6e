(** Model of the counting Bloom filter of the selector matcher,
    /repo/selectors/bloom.rs. *)
From Coq Require Import NArith List.
Import ListNotations.
Local Open Scope N_scope.

(** [BLOOM_HASH_MASK], bloom.rs:12: the filter only looks at 24 bits. *)
Definition hash_mask : N := 0xffffff.

(** [KEY_SIZE] and [KEY_MASK], bloom.rs:13-16. *)
Definition key_size : N := 12.
Definition key_mask : N := 0xfff.

(** [hash1], bloom.rs:276-278. *)
Definition hash1 (h : N) : N := N.land h key_mask.

(** [hash2], bloom.rs:281-283. *)
Definition hash2 (h : N) : N := N.land (N.shiftr h key_size) key_mask.

(** The counters of [BloomStorageU8], bloom.rs:172-174.  The array of 4096
    bytes is a function from indices; only indices below 4096 are ever used
    (both hash functions mask with [key_mask]). *)
Definition counters := N -> N.

(** [BloomStorageU8::default], bloom.rs:200-206; [CountingBloomFilter::new]
    and [clear], bloom.rs:79-87, produce it. *)
Definition empty_filter : counters := fun _ => 0.

(** [BloomStorageU8::slot_is_empty], bloom.rs:190-192. *)
Definition slot_is_empty (c : counters) (i : N) : bool := c i =? 0.

Definition set_slot (c : counters) (i v : N) : counters :=
  fun j => if j =? i then v else c j.

(** [BloomStorageU8::adjust_slot], bloom.rs:178-188.  A counter that reached
    255 stays there.  [None] is the arithmetic underflow of [*slot -= 1] at
    zero: a panic with overflow checks. *)
Definition adjust_slot (c : counters) (i : N) (increment : bool) : option counters :=
  if c i =? 0xff then Some c
  else if increment then Some (set_slot c i (c i + 1))
  else if c i =? 0 then None
  else Some (set_slot c i (c i - 1)).

(** [insert_hash] and [remove_hash], bloom.rs:102-114: first slot, then
    second slot. *)
Definition adjust_hash (c : counters) (h : N) (increment : bool) : option counters :=
  match adjust_slot c (hash1 h) increment with
  | None => None
  | Some c' => adjust_slot c' (hash2 h) increment
  end.

Definition insert_hash (c : counters) (h : N) : option counters := adjust_hash c h true.
Definition remove_hash (c : counters) (h : N) : option counters := adjust_hash c h false.

(** [might_contain_hash], bloom.rs:119-122. *)
Definition might_contain_hash (c : counters) (h : N) : bool :=
  negb (slot_is_empty c (hash1 h)) && negb (slot_is_empty c (hash2 h)).

(** A history of calls on one filter. *)
Inductive bop := Insert (h : N) | Remove (h : N) | Clear.

Definition run_bop (c : counters) (o : bop) : option counters :=
  match o with
  | Insert h => insert_hash c h
  | Remove h => remove_hash c h
  | Clear => Some empty_filter
  end.

Fixpoint run_bops (c : counters) (l : list bop) : option counters :=
  match l with
  | [] => Some c
  | o :: r => match run_bop c o with None => None | Some c' => run_bops c' r end
  end.
