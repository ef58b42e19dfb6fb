(** * Model of blmath/console.py.

    What the user types is a list of lines.  [plumbum.cli.terminal.prompt] is modelled
    here as it is documented: it strips the line, takes the default for an empty answer
    if there is one and asks again otherwise, and asks again when the conversion raises
    ValueError or TypeError.  SIMPLIFICATION: what is displayed is not modelled; the end
    of the input is a call that still waits. *)
From Coq Require Import Ascii String List Bool.
From Verif Require Import Num MUnits MValue.
Import ListNotations.

(** Python's [str.strip] on ASCII text: white space is 9-13, 28-32. *)
Definition space (c : ascii) : bool :=
  let n := nat_of_ascii c in (Nat.leb 9 n && Nat.leb n 13) || (Nat.leb 28 n && Nat.leb n 32).
Fixpoint lstrip (s : string) : string :=
  match s with
  | EmptyString => EmptyString
  | String c s' => if space c then lstrip s' else s
  end.
Fixpoint rstrip (s : string) : string :=
  match s with
  | EmptyString => EmptyString
  | String c s' => match rstrip s' with
                   | EmptyString => if space c then EmptyString else String c EmptyString
                   | t => String c t
                   end
  end.
Definition strip (s : string) : string := rstrip (lstrip s).

Section Console.
Context {F : Type} {N : Num F}.
(** A call of [prompt] on the lines typed: still waiting, or an answer and the lines
    left.  [parse] stands for the built-in [float] on strings (None: ValueError). *)
Inductive outcome (A : Type) := Waiting | Answer (a : A) (rest : list string).
Arguments Waiting {A}.
Arguments Answer {A}.
Context (parse : string -> option F).
(** [default] is None without a default argument (plumbum's NotImplemented). *)
Fixpoint prompt (default : option (option F)) (lines : list string) : outcome (option F) :=
  match lines with
  | [] => Waiting
  | line :: rest =>
      match strip line with
      | EmptyString => match default with Some d => Answer d rest | None => prompt default rest end
      | ans => match parse ans with Some x => Answer (Some x) rest | None => prompt default rest end
      end
  end.
(** console.py:1-13 [input_float] *)
Definition input_float (allow_empty : bool) (lines : list string) : outcome (option F) :=
  if allow_empty then prompt (Some None) lines else prompt None lines.
(** console.py:15-36 [input_value] *)
Definition input_value (units : ustr) (allow_empty : bool) (lines : list string) : outcome (res (option (value F))) :=
  match input_float allow_empty lines with
  | Waiting => Waiting
  | Answer None rest => Answer (Ok None) rest
  | Answer (Some x) rest => Answer (mapr Some (mk_num x units)) rest
  end.
End Console.
Arguments Waiting {A}.
Arguments Answer {A}.
