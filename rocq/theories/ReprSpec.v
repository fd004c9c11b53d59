(** Reading the text forms of C90: the words of a text, independent of the model. *)
From Coq Require Import Ascii String List Bool Arith ZArith.
Import ListNotations.
Local Open Scope list_scope.

(** Blanks, newlines, brackets, parentheses and commas separate words. *)
Definition separates (c : ascii) : bool :=
  existsb (Ascii.eqb c) (list_ascii_of_string " []()," ++ ["010"%char]).

(** The words, [cur] being the word read so far. *)
Fixpoint words_from (cur l : list ascii) : list (list ascii) :=
  match l with
  | [] => match cur with [] => [] | _ => [cur] end
  | c :: l' =>
      if separates c then match cur with [] => words_from [] l' | _ => cur :: words_from [] l' end
      else words_from (cur ++ [c]) l'
  end.
Definition words (l : list ascii) : list (list ascii) := words_from [] l.
Definition word (s : string) : list ascii := list_ascii_of_string s.

(** A number is printed as one word, perhaps with blanks around it. *)
Definition one_word (l w : list ascii) : Prop := words l = [w].

(** Lines of a text. *)
Fixpoint join (sep : list ascii) (ls : list (list ascii)) : list ascii :=
  match ls with
  | [] => []
  | [l] => l
  | l :: rest => l ++ sep ++ join sep rest
  end.
