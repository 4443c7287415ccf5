(** Spec_Modes.v -- the same parser in other modes. *)
From Verif Require Import Base Model_Number Model_Types Model_Argument Model_Usage Model_Args Model_Api Spec_Names Spec_Reading Spec_Parse Spec_Api Spec_Result.

(** the object after setAlternative(), setStrictMode(), setHelpException() and
    setVersionException() *)
Definition in_modes (m : modes) (s : state) : state :=
  fst (calls [OpSetAlternative (m_alternative m); OpSetStrict (m_strict m); OpSetHelpException (m_helpex m); OpSetVersionException (m_verex m)] s).
Definition strictly (b : bool) (m : modes) : modes := Modes (m_alternative m) b (m_helpex m) (m_verex m).
Definition alternatively (b : bool) (m : modes) : modes := Modes b (m_strict m) (m_helpex m) (m_verex m).
Definition excepting (h v : bool) (m : modes) : modes := Modes (m_alternative m) (m_strict m) h v.

(** how a text (usage, version) reaches the user: an exception, or printed before exit *)
Definition told (ex : bool) (k : xkind) (u : str) : res unit := if ex then Throw (Exn k "" u) else Exit (u ^^ nl).
(** the refusal of a word that no argument takes *)
Definition not_wanted (w : str) : res unit := Throw (Exn KParse w "invalid additional argument").
(** a word -name or -name=value for which --name is declared *)
Definition long_with_one_dash (s : state) (w : str) : Prop :=
  word_kind w = WShort /\ argumentExists s (String "-" (fst (cut_eq w))) = true.
