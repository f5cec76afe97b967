(** What loading a file or a text is to do. *)

From Coq Require Import ZArith List Bool.
From Verif Require Import Base Txml_Model Txml_Spec Load_Model.
Import ListNotations.

(** give a parser the pieces one after the other, the last one as the last one of the
    document if [fin], until an error: the handler calls, and whether there was no error *)
Fixpoint feed (X : expat) (p : x_st X) (fin : bool) (pieces : list (list Z)) : list event * bool :=
  match pieces with
  | [] => ([], true)
  | d :: rest =>
      let '(p, evs, ok) := x_parse X p d (match rest with [] => fin | _ => false end) in
      if ok : bool then let '(evs', ok) := feed X p fin rest in (evs ++ evs', ok) else (evs, false)
  end.

(** an expat that understands the documents [doc]: it accepts exactly the documents,
    whatever the pieces, and reports what is in them; before an error or the end it reports
    properly nested elements *)
Definition understands (X : expat) (doc : list Z -> option node) : Prop :=
  exists p, x_new X = Some p /\
    (forall pieces, pieces <> [] ->
      match doc (concat pieces) with
      | Some n => snd (feed X p true pieces) = true /\ events n (fst (feed X p true pieces))
      | None => snd (feed X p true pieces) = false /\ nested 0 (fst (feed X p true pieces))
      end) /\
    (forall pieces, nested 0 (fst (feed X p false pieces))).

(** everything acquired is released once, and a file is not used when closed *)
Fixpoint tidy (opened created : bool) (log : list act) : Prop :=
  match log with
  | [] => opened = false /\ created = false
  | Create :: log => created = false /\ tidy opened true log
  | Free :: log => created = true /\ tidy opened false log
  | Open :: log => opened = false /\ tidy true created log
  | Close :: log => opened = true /\ tidy false created log
  | Feed _ _ :: log => created = true /\ tidy opened created log
  end.

(** the pieces given to the parser *)
Fixpoint fed (log : list act) : list (list Z * bool) :=
  match log with
  | [] => []
  | Feed d fin :: log => (d, fin) :: fed log
  | _ :: log => fed log
  end.

(** pieces with the mark of the last one *)
Fixpoint marked (fin : bool) (pieces : list (list Z)) : list (list Z * bool) :=
  match pieces with
  | [] => []
  | [d] => [(d, fin)]
  | d :: rest => (d, false) :: marked fin rest
  end.
