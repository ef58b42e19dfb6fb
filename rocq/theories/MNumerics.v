(** * Model of blmath/numerics: coercion.py, predicates.py, operations.py and
    linalg/gram_schmidt.py. *)
From Coq Require Import ZArith QArith List Bool.
From Verif Require Import Num Vec NpList.
Import ListNotations.
Local Open Scope num_scope.

Section Numerics.
Context {F : Type} {N : Num F}.

(** ** n-dimensional arrays: a shape, and the entry at each index tuple. *)
Record nd := mknd { nd_shape : list nat; nd_at : list nat -> F }.
(** [a.T] *)
Definition nd_T (a : nd) : nd := mknd (rev (nd_shape a)) (fun i => nd_at a (rev i)).
(** all index tuples of a shape, in C order *)
Fixpoint indices (s : list nat) : list (list nat) :=
  match s with
  | [] => [[]]
  | n :: s' => flat_map (fun i => map (cons i) (indices s')) (seq 0 n)
  end.

(** What [np.asarray(a)] makes of the argument of as_numeric_array: nothing for
    None, an array of real numbers, or an array whose dtype is not real numeric
    (bool, complex, str, object of non-numbers).  SIMPLIFICATION: the dtype
    argument is not modelled. *)
Inductive arg := ANone | ANum (a : nd) | AOther.

(** predicates.py:58-60 on a real numeric array: no entry is nan or infinite. *)
Definition nd_numeric (a : nd) : bool := forallb (fun i => nfinite (nd_at a i)) (indices (nd_shape a)).
(** coercion.py:40,42: [all([exp == -1 or exp == dim for exp, dim in zip(shape, dims)])] *)
Definition dims_match (pattern : list Z) (dims : list nat) : bool :=
  forallb (fun ed : Z * nat => (fst ed =? -1)%Z || (fst ed =? Z.of_nat (snd ed))%Z) (combine pattern dims).
(** coercion.py:1-46 [as_numeric_array(a, shape, allow_none, empty_as_none)]. *)
Definition as_numeric_array (a : arg) (shape : option (list Z)) (allow_none empty_as_none : bool) : res (option nd) :=
  match a with
  | ANone => if allow_none then Ok None else Err ValueError
  | AOther => Err ValueError
  | ANum a =>
      if negb (nd_numeric a) then Err ValueError
      else if allow_none && empty_as_none && (if list_eq_dec Nat.eq_dec (nd_shape a) [0%nat] then true else false) then Ok None
      else match shape with
           | None => Ok (Some a)
           | Some p =>
               if negb (Nat.eqb (length p) (length (nd_shape a))) then Err ValueError
               else if dims_match p (nd_shape a) then Ok (Some a)
               else if dims_match p (nd_shape (nd_T a)) then Ok (Some (nd_T a))
               else Err ValueError
           end
  end.

(** ** predicates.py *)
(** Decimal values, as far as [isnumeric] can tell them apart. *)
Inductive decimal := DFinite (q : Q) | DInf | DNaN | DsNaN.
(** Python scalars.  SIMPLIFICATION: numpy scalars and 0-d arrays behave like
    the Python scalar of the same kind and are not listed; a string stands for
    str and bytes. *)
Inductive pyscalar :=
  | PNone | PBool (b : bool) | PInt (z : Z) | PFloat (x : F) | PComplex (re im : F)
  | PStr | PDec (x : decimal) | PFrac (q : Q).
(** A value: a scalar, or a list/tuple/array of values. *)
Inductive pyval := PS (s : pyscalar) | PL (l : list pyval).

(** Kinds of dtype numpy infers. *)
Inductive dtype := TBool | TInt | TFloat | TComplex | TStr | TObject.
(** integers outside int64 are stored as objects.
    SIMPLIFICATION: the range of uint64 beyond int64 is treated as object too;
    isnumeric answers the same for both. *)
Definition fits_int64 (z : Z) : bool := ((- 2 ^ 63 <=? z) && (z <? 2 ^ 63))%Z.
Definition kind (s : pyscalar) : dtype :=
  match s with
  | PBool _ => TBool | PInt z => if fits_int64 z then TInt else TObject | PFloat _ => TFloat | PComplex _ _ => TComplex
  | PStr => TStr | PNone | PDec _ | PFrac _ => TObject
  end.
Definition rank (t : dtype) : nat :=
  match t with TBool => 0 | TInt => 1 | TFloat => 2 | TComplex => 3 | TStr => 4 | TObject => 5 end.
Definition promote (t u : dtype) : dtype := if Nat.leb (rank t) (rank u) then u else t.
Fixpoint leaves (v : pyval) : list pyscalar :=
  match v with PS s => [s] | PL l => (fix go l := match l with [] => [] | x :: l' => leaves x ++ go l' end) l end.
(** dtype of [np.asarray]: float for no elements, otherwise the promoted kind *)
Definition infer (ss : list pyscalar) : dtype :=
  match ss with [] => TFloat | s :: ss' => fold_left promote (map kind ss') (kind s) end.
(** Shape of nested lists, [None] when ragged. *)
Fixpoint shape_of (v : pyval) : option (list nat) :=
  match v with
  | PS _ => Some []
  | PL l =>
      (fix go (l : list pyval) : option (list nat) :=
         match l with
         | [] => Some [0%nat]
         | [x] => match shape_of x with Some s => Some (1%nat :: s) | None => None end
         | x :: l' => match shape_of x, go l' with
                      | Some s, Some (n :: s') => if list_eq_dec Nat.eq_dec s s' then Some (S n :: s') else None
                      | _, _ => None
                      end
         end) l
  end.

(** How [x+x, x-x, x*x] then [x/x] of one object end. *)
Inductive outcome := Fine | ZeroDiv | Fails.
Definition additive (s : pyscalar) : bool :=  (* x+x, x-x, x*x do not raise *)
  match s with
  | PNone | PStr => false
  | PDec DInf | PDec DsNaN => false   (* inf-inf and any signalling NaN: InvalidOperation *)
  | _ => true
  end.
Definition self_quotient (s : pyscalar) : outcome :=
  match s with
  | PNone | PStr => Fails
  | PBool b => if b then Fine else ZeroDiv
  | PInt z => if (z =? 0)%Z then ZeroDiv else Fine
  | PFloat x => if x =? n0 then ZeroDiv else Fine
  | PComplex x y => if (x =? n0) && (y =? n0) then ZeroDiv else Fine
  | PDec (DFinite q) => if Qeq_bool q 0 then Fails else Fine   (* 0/0: InvalidOperation *)
  | PDec DNaN => Fine
  | PDec _ => Fails
  | PFrac q => if Qeq_bool q 0 then ZeroDiv else Fine
  end.
(** predicates.py:62-73 for objects, evaluated in order; the first exception decides. *)
Fixpoint quotients (ss : list pyscalar) : outcome :=
  match ss with
  | [] => Fine
  | s :: ss' => match self_quotient s with Fine => quotients ss' | o => o end
  end.
Definition mathy (ss : list pyscalar) : bool :=
  forallb additive ss && match quotients ss with Fails => false | _ => true end.
Definition float_ok (s : pyscalar) : bool := match s with PFloat x => nfinite x | _ => true end.

(** predicates.py:1-27 [isnumeric].  SIMPLIFICATION: a ragged nested list is an
    array of lists, whose subtraction fails, so the answer is False. *)
Definition isnumeric (v : pyval) : bool :=
  match v with
  | PS s =>
      match kind s with
      | TBool | TComplex | TStr => false
      | TFloat => float_ok s
      | TInt => true
      | TObject => mathy [s]
      end
  | PL _ =>
      match shape_of v with
      | None => false
      | Some _ =>
          let ss := leaves v in
          match infer ss with
          | TBool | TComplex | TStr => false
          | TFloat => forallb float_ok ss
          | TInt => true
          | TObject => mathy ss
          end
      end
  end.
(** [hasattr(x, '__iter__')]: lists, and strings in Python 3. *)
Definition has_iter (v : pyval) : bool := match v with PL _ => true | PS PStr => true | PS _ => false end.
(** predicates.py:29-30, 32-33 *)
Definition isnumericscalar (v : pyval) : bool := negb (has_iter v) && isnumeric v.
Definition isnumericarray (v : pyval) : bool := has_iter v && isnumeric v.
(** predicates.py:35-54 [is_empty_arraylike] on None, an ndarray of a given
    shape, a list or tuple of a given length, or anything else. *)
Inductive container := CNone | CNdarray (shape : list nat) | CList (n : nat) | CTuple (n : nat) | COther.
Definition is_empty_arraylike (c : container) : bool :=
  match c with
  | CNone => true
  | CNdarray s => Nat.eqb (fold_right Nat.mul 1%nat s) 0
  | CList n | CTuple n => Nat.eqb n 0
  | COther => false
  end.

(** ** operations.py *)
(** an operand: a scalar or a 1-d array *)
Inductive operand := OScalar (x : F) | OArray (l : list F).
(** numpy broadcasting of two 1-d operands *)
Definition broadcast (f : F -> F -> F) (a b : list F) : res (list F) :=
  if Nat.eqb (length a) (length b) then Ok (map2 f a b)
  else match a, b with
       | [x], _ => Ok (map (f x) b)
       | _, [y] => Ok (map (fun x => f x y) a)
       | _, _ => Err ValueError
       end.
(** operations.py:6-22 [zero_safe_divide]; two scalars make [quotient] a numpy
    scalar, which does not support item assignment. *)
Definition zero_safe_divide (a b : operand) (default_error_value : F) : res (list F) :=
  let safe q := if nfinite q then q else default_error_value in
  match a, b with
  | OScalar _, OScalar _ => Err TypeError
  | OScalar x, OArray l => Ok (map (fun y => safe (x / y)) l)
  | OArray l, OScalar y => Ok (map (fun x => safe (x / y)) l)
  | OArray l, OArray k => mapr (map safe) (broadcast ndiv l k)
  end.
(** [np.min], [np.max] of a non-empty array; ValueError for none *)
Definition amin (l : list F) : res F :=
  match l with [] => Err ValueError | x :: l' => Ok (fold_left (fun a b => if b <? a then b else a) l' x) end.
Definition amax (l : list F) : res F :=
  match l with [] => Err ValueError | x :: l' => Ok (fold_left (fun a b => if a <? b then b else a) l' x) end.
(** operations.py:1-4 [scale_to_range]. *)
Definition scale_to_range (a : list F) (r_min r_max : F) : res (list F) :=
  let* m := amin a in
  let a := map (fun x => x - m) a in
  let* mx := amax a in
  Ok (map (fun x => (r_max - r_min) * x / mx + r_min) a).

(** ** linalg/gram_schmidt.py; rows are lists of one common length *)
Definition gdot (u v : list F) : F := nsum (map2 nmul u v).
(** gram_schmidt.py:52-56 [proj(u, v)] *)
Definition gproj (u v : list F) : list F := map (nmul (gdot u v / gdot u u)) u.
(** gram_schmidt.py:33: Python's [sum] of the rows, starting from 0 *)
Definition rows_sum (d : nat) (rows : list (list F)) : list F := fold_left (map2 nadd) rows (repeat n0 d).
(** gram_schmidt.py:27-38 [orthogonalize] *)
Definition orthogonalize (v : list (list F)) : list (list F) :=
  fold_left (fun o w =>
    let proj_cmp := rows_sum (length w) (map (fun u => gproj u w) o) in
    o ++ [map2 nsub w proj_cmp]) v [].
(** Python index into a sequence of length n: negative counts from the end *)
Definition py_index (n : nat) (i : Z) : res nat :=
  let j := (if i <? 0 then i + Z.of_nat n else i)%Z in
  if ((0 <=? j) && (j <? Z.of_nat n))%Z then Ok (Z.to_nat j) else Err IndexError.
Fixpoint update {A} (l : list A) (i : nat) (f : A -> A) : list A :=
  match l, i with
  | [], _ => []
  | x :: l', O => f x :: l'
  | x :: l', S i' => x :: update l' i' f
  end.
Definition unit_row (r : list F) : list F := let n := nsqrt (gdot r r) in map (fun x => x / n) r.
(** gram_schmidt.py:46-48, on rows of [res] in place *)
Fixpoint normalize_rows (res_ : list (list F)) (idxs : list Z) : res (list (list F)) :=
  match idxs with
  | [] => Ok res_
  | i :: idxs' =>
      let* j := py_index (length res_) i in
      normalize_rows (update res_ j unit_row) idxs'
  end.
(** gram_schmidt.py:40-50 [orthonormalize] *)
Definition orthonormalize (v : list (list F)) (idxs : option (list Z)) : res (list (list F)) :=
  let idxs := match idxs with Some l => l | None => map Z.of_nat (seq 0 (length v)) end in
  normalize_rows (orthogonalize v) idxs.
End Numerics.
Arguments nd F : clear implicits.
Arguments arg F : clear implicits.
Arguments pyscalar F : clear implicits.
Arguments pyval F : clear implicits.
Arguments operand F : clear implicits.
