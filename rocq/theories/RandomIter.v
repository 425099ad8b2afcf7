(** RandomIter.v — the random access iterators of c_vector.c 60-344 and c_deque.c 73-350 at the level
    of machine addresses.  An iterator's [pos] is a byte address, an integer in [0, 2^64); [es] is
    value_type->size().  [size_t] arithmetic is modulo 2^64, [ptrdiff_t] is two's complement 64 bit;
    "pointer +/- size_t" is address arithmetic modulo 2^64 (flat address space). *)
From Verif Require Import Base.
From stdpp Require Import list.
Local Open Scope Z_scope.

(** conversions to size_t and to ptrdiff_t *)
Definition to_u64 (x : Z) : Z := x mod 2 ^ 64.
Definition to_s64 (x : Z) : Z := let u := x mod 2 ^ 64 in if u <? 2 ^ 63 then u else u - 2 ^ 64.

(** c_vector.c 90-104, c_deque.c 103-117 *)
Definition iter_inc (es pos : Z) : Z := to_u64 (pos + es).
Definition iter_dec (es pos : Z) : Z := to_u64 (pos - es).
(** c_vector.c 161-165, c_deque.c 176-180: [n * size()] converts [n] to size_t *)
Definition iter_advance (es pos n : Z) : Z :=
  if n =? 0 then pos else to_u64 (pos + to_u64 (to_u64 n * es)).
(** c_vector.c 167-171, c_deque.c 182-186: [(ptrdiff_t)(last - first) / size()] — the cast binds tighter
    than the division, whose other operand is a size_t, so the division is unsigned; the quotient is
    converted to the ptrdiff_t result. *)
Definition iter_distance (es first last : Z) : Z := to_s64 (to_u64 (to_s64 (last - first)) / es).
(** c_vector.c 155-159, c_deque.c 170-174 *)
Definition iter_less (x y : Z) : bool := x <? y.
(** the reverse iterators, c_vector.c 189-270, c_deque.c 204-287: [pos] is one past the element *)
Definition riter_inc (es pos : Z) : Z := to_u64 (pos - es).
Definition riter_dec (es pos : Z) : Z := to_u64 (pos + es).
Definition riter_deref (es pos : Z) : Z := to_u64 (pos - es).
Definition riter_advance (es pos n : Z) : Z := to_u64 (pos - to_u64 (to_u64 n * es)).
Definition riter_distance (es first last : Z) : Z := to_s64 (to_u64 (to_s64 (first - last)) / es).
Definition riter_less (x y : Z) : bool := y <? x.
