(** Model_Text.v -- argument.h:130-150 boolTo(char (&)[Size]) and argument.h:227-237
    strTo(char (&)[Size]): writing a value into a fixed array of characters.
    The array is the list of its [Size] bytes; every write is checked against its
    bounds ([None] = write or read out of bounds). *)
From Verif Require Import Base.

(** the bytes of a std::string *)
Fixpoint bytes (s : str) : list ascii :=
  match s with EmptyString => [] | String c r => c :: bytes r end.
(** memcpy(dst, src, n): [src] is what may be read at the source *)
Definition memcpy (dst src : list ascii) (n : nat) : option (list ascii) :=
  if Nat.leb n (length dst) && Nat.leb n (length src) then Some (firstn n src ++ skipn n dst) else None.
(** dst[i] = c *)
Definition poke (dst : list ascii) (i : nat) (c : ascii) : option (list ascii) :=
  if Nat.ltb i (length dst) then Some (firstn i dst ++ c :: skipn (S i) dst) else None.
Definition obind {A B} (x : option A) (f : A -> option B) : option B := match x with Some a => f a | None => None end.

(** Size - 1 in size_t: wraps for 0, so the copy below is then out of bounds *)
Definition size_minus_1 (mem : list ascii) : nat := match length mem with O => S (length mem) | S k => k end.

(** argument.h:227-237 strTo(const std::string&, char (&)[Size]); c_str() is the bytes and a NUL *)
Definition strTo_chars (s : str) (mem : list ascii) : option (list ascii) :=
  if Nat.ltb (String.length s) (length mem)
  then obind (memcpy mem (bytes s ++ [nul]) (String.length s)) (fun m => poke m (String.length s) nul)
  else obind (memcpy mem (bytes s ++ [nul]) (size_minus_1 mem)) (fun m => poke m (size_minus_1 mem) nul).
(** argument.h:130-150 boolTo(bool, char (&)[Size]): literals "true" and "false" with their NUL *)
Definition literal_to (lit : str) (mem : list ascii) : option (list ascii) :=
  if Nat.leb (S (String.length lit)) (length mem)
  then memcpy mem (bytes lit ++ [nul]) (S (String.length lit))
  else obind (memcpy mem (bytes lit ++ [nul]) (size_minus_1 mem)) (fun m => poke m (size_minus_1 mem) nul).
Definition boolTo_chars (b : bool) (mem : list ascii) : option (list ascii) :=
  literal_to (if b then "true" else "false") mem.
