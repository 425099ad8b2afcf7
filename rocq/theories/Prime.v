(** Prime.v — model of /repo/prime/c_prime_internal.h 33-121 (the operations generated for each built-in type) and
    c_primes.c 27-67 (the types).

    An object of an integer type is its bytes, little endian, two's complement.  A float or double is its IEEE 754
    value, as defined by the standard library's SpecFloat (decoding from bytes is not modelled).  Null arguments
    (assertion failures) are not modelled. *)
From Verif Require Import Base Spec.
From Coq Require Import Floats.SpecFloat.
From stdpp Require Import list.
Open Scope Z_scope.

(** the integer types instantiated in c_primes.c: size in bytes and signedness (of plain char: either) *)
Record itype := IType { it_size : nat; it_signed : bool }.
Notation bytes := (list Z).
(** unsigned value of bytes, least significant first *)
Fixpoint unsigned (bs : bytes) : Z := match bs with [] => 0 | b :: bs' => b + 256 * unsigned bs' end.
Fixpoint digits (n : nat) (z : Z) : bytes := match n with O => [] | S n' => z mod 256 :: digits n' (z / 256) end.
Definition modulus (t : itype) : Z := 256 ^ Z.of_nat (it_size t).
(** the value [*(type* )obj] *)
Definition ival (t : itype) (bs : bytes) : Z :=
  let u := unsigned bs in if it_signed t && (modulus t <=? 2 * u) then u - modulus t else u.
Definition ibytes (t : itype) (z : Z) : bytes := digits (it_size t) (z mod modulus t).
(** an object of the type, and the values it can hold *)
Definition iobj (t : itype) (bs : bytes) : Prop := length bs = it_size t /\ Forall (fun b => 0 <= b < 256) bs.
Definition in_type (t : itype) (z : Z) : Prop :=
  if it_signed t then - modulus t <= 2 * z < modulus t else 0 <= z < modulus t.
(** c_prime_internal.h 45-49, with the initial value 0 of c_primes.c *)
Definition prime_create (t : itype) (obj : bytes) : bytes := ibytes t 0.
(** c_prime_internal.h 52-57 *)
Definition prime_copy (t : itype) (dst src : bytes) : bytes := ibytes t (ival t src).
(** c_prime_internal.h 73-81; [same]: dst and src are the same address *)
Definition prime_assign (t : itype) (same : bool) (dst src : bytes) : bytes := if same then dst else ibytes t (ival t src).
(** c_prime_internal.h 84-89 *)
Definition prime_less (t : itype) (x y : bytes) : bool := ival t x <? ival t y.
(** c_prime_internal.h 92-97 *)
Definition prime_equal (t : itype) (x y : bytes) : bool := ival t x =? ival t y.

(** float and double: c_prime_internal.h 84-98 *)
Definition float_less (x y : spec_float) : bool := SFltb x y.
Definition float_equal (x y : spec_float) : bool := SFeqb x y.
Definition is_number (x : spec_float) : Prop := x <> S754_nan.
