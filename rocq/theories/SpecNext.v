(** What can come next in a constraint, token by token: a reader that only looks at the kinds of the tokens. For every parenthesis that is
    open it remembers two things: whether the current operand stands to the right of a comparison, and whether it stands to the right of
    an implication (since the last ';'). It is independent of the parser and of the grammar rules. *)
From Coq Require Import List Bool.
From Verif Require Import Token SpecBlame.
Import ListNotations.

(** Where the reader stands. *)
Inductive place :=
| Begin (** an expression has to begin *)
| Semi (** after ';': an expression may begin *)
| Name (** after the first part of a name *)
| Path (** after a further part of a name *)
| Done (** after any other operand *)
| NeedPart (** after '.' *)
| NeedField (** after '::' *)
| NeedString (** after the '(' of an address *)
| NeedClose. (** after the string of an address *)
Record level := mkLevel { right_of_comparison : bool; right_of_implication : bool }.
Definition top_level : level := mkLevel false false.
(** The innermost parenthesis comes first; the last level is the one outside of all parentheses. *)
Record reader := mkReader { at_place : place; levels : list level }.

Definition literal (k : kind) : bool := match k with TRUE | FALSE | BINARY | OCTARY | DECIMAL | HEXADEC => true | _ => false end.
Definition comparison (k : kind) : bool := match k with EQ | NE | GT | GE | LT | LE => true | _ => false end.
Definition operator (k : kind) : bool := (comparison k || match k with DOUBLE_COLON | AND | OR | IMPLIES | SEMICOLON => true | _ => false end)%bool.

(** A token that begins an expression. *)
Definition begin (ls : list level) (k : kind) : option reader :=
  if literal k then Some (mkReader Done ls) else
  match k with
  | ID => Some (mkReader Name ls)
  | DOUBLE_COLON => Some (mkReader NeedField ls)
  | BANG | MINUS => Some (mkReader Begin ls)
  | LPAR => Some (mkReader Begin (top_level :: ls))
  | _ => None
  end.
(** ')' where one is open. *)
Definition close (ls : list level) : option reader :=
  match ls with _ :: l :: up => Some (mkReader Done (l :: up)) | _ => None end.
(** A token that comes after an operand. *)
Definition continue (ls : list level) (k : kind) : option reader :=
  match ls with
  | [] => None
  | l :: up =>
      let goes_on p cmp imp := Some (mkReader p (mkLevel cmp imp :: up)) in
      if comparison k then if right_of_comparison l then None else goes_on Begin true (right_of_implication l)
      else match k with
      | DOUBLE_COLON => Some (mkReader NeedField ls)
      | AND | OR => goes_on Begin false (right_of_implication l)
      | IMPLIES => if right_of_implication l then None else goes_on Begin false true
      | SEMICOLON => goes_on Semi false false
      | RPAR => close ls
      | _ => None
      end
  end.
Definition next (s : reader) (k : kind) : option reader :=
  let ls := levels s in
  match at_place s, k with
  | Begin, _ => begin ls k
  | Semi, RPAR => close ls
  | Semi, _ => begin ls k
  | Name, LPAR => Some (mkReader NeedString ls)
  | Name, DOT | Path, DOT => Some (mkReader NeedPart ls)
  | Name, _ | Path, _ | Done, _ => continue ls k
  | NeedPart, ID => Some (mkReader Path ls)
  | NeedField, ID => Some (mkReader Done ls)
  | NeedString, STRING => Some (mkReader NeedClose ls)
  | NeedClose, RPAR => Some (mkReader Done ls)
  | _, _ => None
  end.
Fixpoint read (s : reader) (ks : list kind) : option reader :=
  match ks with
  | [] => Some s
  | k :: ks => match next s k with Some s' => read s' ks | None => None end
  end.
Definition start : reader := mkReader Begin [top_level].
(** The constraint may be over. *)
Definition over (s : reader) : bool :=
  match at_place s, levels s with
  | (Semi | Name | Path | Done), [_] => true
  | _, _ => false
  end.
(** A token of kind [k] may come next; END_OF_INPUT: the constraint may be over. *)
Definition may_come (s : reader) (k : kind) : bool :=
  match k with END_OF_INPUT => over s | _ => match next s k with Some _ => true | None => false end end.

(** What the error message says when a token of kind [k] comes at [s] although it may not. *)
Definition message_for (s : reader) (k : kind) : hint :=
  match at_place s with
  | Begin => HStart
  | NeedPart | NeedField => HOne ID
  | NeedString => HOne STRING
  | NeedClose => HOne RPAR
  | p => match k with
         | END_OF_INPUT => HOne RPAR
         | RPAR => HOne END_OF_INPUT
         | _ => match p with Semi => HStart | _ => if operator k then HNon else HExt end
         end
  end.
