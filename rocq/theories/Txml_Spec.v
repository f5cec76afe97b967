(** What an XML document says about an object. *)

From Coq Require Import ZArith List Bool.
From Verif Require Import Base Txml_Model.
Import ListNotations.
Local Open Scope Z_scope.

Inductive node := Text (s : list Z) | Elem (name : list Z) (attrs : list (list Z * list Z)) (content : list node).

(** the events expat reports for a node: text in any number of pieces *)
Inductive events : node -> list event -> Prop :=
| ev_text : forall chunks, events (Text (concat chunks)) (map Chars chunks)
| ev_elem : forall n a c evs, all_events c evs -> events (Elem n a c) (Beg n a :: evs ++ [End])
with all_events : list node -> list event -> Prop :=
| ev_nil : all_events [] []
| ev_cons : forall x c e evs, events x e -> all_events c evs -> all_events (x :: c) (e ++ evs).

Definition text (content : list node) : list Z :=
  flat_map (fun n => match n with Text s => s | Elem _ _ _ => [] end) content.

(** change the members with a given name *)
Fixpoint member (ms : list (list Z * ty)) (vs : list val) (name : list Z) (f : ty -> val -> val) : list val :=
  match ms, vs with
  | (key, t) :: ms, v :: vs => (if key_eqb key name then f t v else v) :: member ms vs name f
  | _, _ => vs
  end.
(** a list gets a new item, anything else is changed in place *)
Definition enter (f : ty -> val -> val) (t : ty) (v : val) : val :=
  match t, v with
  | TList t1 d, VList l => VList (l ++ [f t1 d])
  | _, _ => f t v
  end.
(** an attribute is the value of a scalar *)
Definition attr_value (a : list Z) (t : ty) (v : val) : val :=
  match t with TScal k => VScal (conv k a) | _ => v end.
Definition load_attrs (ms : list (list Z * ty)) (vs : list val) (attrs : list (list Z * list Z)) : list val :=
  fold_left (fun vs a => member ms vs (fst a) (enter (attr_value (snd a)))) attrs vs.

(** what a child node does to the members of the object that its parent element describes:
    a scalar takes the text of the element, an object its attributes and then its children
    in order; elements without a member are skipped *)
Fixpoint load (n : node) (ms : list (list Z * ty)) (vs : list val) : list val :=
  match n with
  | Text _ => vs
  | Elem name attrs content =>
      member ms vs name (enter (fun t v =>
        match t, v with
        | TScal k, _ => VScal (conv k (text content))
        | TObj ms1, VObj vs1 =>
            VObj (fold_left (fun vs n => load n ms1 vs) content (load_attrs ms1 vs1 attrs))
        | _, _ => v
        end))
  end.

(** the document fits the type: no elements inside an element for a scalar *)
Definition item (t : ty) : ty := match t with TList t1 _ => t1 | _ => t end.
Fixpoint fits (n : node) (ms : list (list Z * ty)) : Prop :=
  match n with
  | Text _ => True
  | Elem name _ content =>
      forall t, In (name, t) ms ->
      match item t with
      | TObj ms1 => (fix all (c : list node) : Prop := match c with [] => True | n :: c => fits n ms1 /\ all c end) content
      | _ => Forall (fun n => exists s, n = Text s) content
      end
  end.

(** values of a type *)
Inductive has_ty : val -> ty -> Prop :=
| h_scal : forall s k, has_ty (VScal s) (TScal k)
| h_list : forall l t d, Forall (fun v => has_ty v t) l -> has_ty (VList l) (TList t d)
| h_obj : forall vs ms, Forall2 (fun v m => has_ty v (snd m)) vs ms -> has_ty (VObj vs) (TObj ms).

(** types that can be loaded: members have different names, none of them empty; the items of
    a list are not lists themselves *)
Inductive good : ty -> Prop :=
| g_scal : forall k, good (TScal k)
| g_list : forall t d, good t -> (forall t1 d1, t <> TList t1 d1) -> has_ty d t -> good (TList t d)
| g_obj : forall ms, NoDup (map fst ms) -> ~ In [] (map fst ms) -> Forall (fun m => good (snd m)) ms -> good (TObj ms).

(** decimal numbers *)
Definition decimal (ds : list Z) : Z := fold_left (fun n d => n * 10 + (d - 48)) ds 0.
Definition digit (d : Z) : Prop := 48 <= d <= 57.
Inductive integer : list Z -> Z -> Prop :=
| int_pos : forall ds, ds <> [] -> Forall digit ds -> integer ds (decimal ds)
| int_neg : forall ds, ds <> [] -> Forall digit ds -> integer (45 :: ds) (- decimal ds).

Definition low (c : Z) : Z := if (65 <=? c) && (c <=? 90) then c + 32 else c.
Definition same_word (a b : list Z) : Prop := map low a = map low b.

(** event sequences in which every End closes an open element: every prefix of what expat
    reports for a document, [d] elements being open already *)
Fixpoint nested (d : nat) (evs : list event) : Prop :=
  match evs with
  | [] => True
  | Beg _ _ :: evs => nested (S d) evs
  | Chars _ :: evs => nested d evs
  | End :: evs => match d with O => False | S d => nested d evs end
  end.

(** the range of a member *)
Definition range (k : kind) : option (Z * Z) :=
  match k with
  | KI32 => Some (- 2 ^ 31, 2 ^ 31 - 1)
  | KU32 => Some (0, 2 ^ 32 - 1)
  | KI64 => Some (- 2 ^ 63, 2 ^ 63 - 1)
  | KU64 => Some (0, 2 ^ 64 - 1)
  | KU8 => Some (0, 255)
  | _ => None
  end.
