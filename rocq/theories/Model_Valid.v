(** Model_Valid.v -- src/valid.cpp: the validators shipped with the library. *)
From Verif Require Import Base Model_Number Model_Types.

(** the loop common to all isValid functions: stop with an exception at the first
    value with an error; the vector is never modified *)
Fixpoint check_each (err : str -> option str) (l : list str) : option str :=
  match l with
  | [] => None
  | x :: r => match err x with Some m => Some m | None => check_each err r end
  end.
Definition check_all (err : str -> option str) (args : list str) : vres :=
  match check_each err args with Some m => VThrow m | None => VOk true args end.

Definition quoted (s : str) : str := dquote ^^ s ^^ dquote.

(** valid.cpp:48-59 ValidNumber::isValid *)
Definition err_number (s : str) : option str :=
  match strtod_rest s with
  | EmptyString => None
  | String _ _ => Some (quoted s ^^ " is not a number")
  end.
Definition validNumber : list str -> vres := check_all err_number.

(** valid.cpp:67-96 ValidMinMax: constructor (swap of reversed bounds) and isValid.
    Generic in the number type: [D] with comparison [ltb], reading [read]
    (stream extraction) and printing [show] (stream insertion), so that C32 holds for
    every order; Properties_MinMax.v instantiates it with binary64 (Model_Double.v);
    Model_Print.v models the printing of doubles. *)
Definition minmax_bounds {D} (ltb : D -> D -> bool) (min max : D) : D * D :=
  if ltb max min then (max, min) else (min, max).
Definition err_minmax {D} (ltb : D -> D -> bool) (read : str -> option D) (show : D -> str)
    (lo hi : D) (s : str) : option str :=
  match read s with
  | None => Some (quoted s ^^ " is not a number")
  | Some x => if ltb x lo || ltb hi x
              then Some (s ^^ " is not between " ^^ show lo ^^ " and " ^^ show hi)
              else None
  end.
Definition validMinMax {D} (ltb : D -> D -> bool) (read : str -> option D) (show : D -> str)
    (min max : D) : list str -> vres :=
  let (lo, hi) := minmax_bounds ltb min max in
  check_all (err_minmax ltb read show lo hi).

(** valid.cpp:104-131 ValidChoise::isValid *)
Definition err_choise (choises : list str) (s : str) : option str :=
  if mem_str s choises then None
  else Some (quoted s ^^ " is not a valid choise (" ^^ join ", " (map quoted choises) ^^ ")").
Definition validChoise (choises : list str) : list str -> vres := check_all (err_choise choises).

(** valid.h:133-137 eMode; result of stat(2): error, or the kind of file *)
Inductive pmode := PAll | PIsFile | PIsDir.
Inductive fkind := FReg | FDir | FOther.
(** valid.cpp:139-164 ValidPath::isValid, over any file system [fs]
    (SIMPLIFICATION: the file system does not change during the call) *)
Definition err_path (mode : pmode) (fs : str -> option fkind) (s : str) : option str :=
  match fs s with
  | None => Some (quoted s ^^ " is not a valid path")
  | Some k =>
      match mode, k with
      | PIsDir, FReg | PIsDir, FOther => Some (quoted s ^^ " is not a valid directory")
      | PIsFile, FDir | PIsFile, FOther => Some (quoted s ^^ " is not a valid file")
      | _, _ => None
      end
  end.
Definition validPath (mode : pmode) (fs : str -> option fkind) : list str -> vres :=
  check_all (err_path mode fs).
