(** Which calls on one database have to do with each other. *)
From Coq Require Import String.
From Verif Require Import Base Tree Versions DbTree Markup Database.
From Verif Require SpecDb.
Local Open Scope Z_scope.
Local Open Scope list_scope.

(** names that differ at most in the case of ASCII letters *)
Definition same_char (a b : Z) : Prop :=
  a = b \/ (65 <= a <= 90 /\ b = a + 32) \/ (65 <= b <= 90 /\ a = b + 32).
Definition same_name (m n : list Z) : Prop := Forall2 same_char m n.
(** the names a DBTree uses *)
Definition tree_name (n : list Z) : Prop :=
  same_name n (str "graph") \/ same_name n (str "graph_parent") \/ same_name n (str "graph_parent_rid").

Section SpecDatabase.
Context {K V : Type}.
(** the name of the table the object was made for *)
Definition call_name (c : call (K := K) (V := V)) : list Z :=
  match c with
  | NewCollection n | GetItem n _ | SetItem n _ _ _ | DelItem n _ | Iter n | Len n | Contains n _ => n
  | _ => str "graph"
  end.
Definition related (m n : list Z) : Prop := same_name m n \/ (tree_name m /\ tree_name n).
(** the calls divided in two such that no name is on both sides *)
Definition separated (mine : call (K := K) (V := V) -> bool) : Prop :=
  forall c c', mine c = true -> mine c' = false -> ~ related (call_name c) (call_name c').
(** the answers to my calls *)
Fixpoint my_answers {A} (mine : call (K := K) (V := V) -> bool) (l : list (call (K := K) (V := V))) (r : list A) : list A :=
  match l, r with
  | c :: l, x :: r => if mine c then x :: my_answers mine l r else my_answers mine l r
  | _, _ => []
  end.

(** the calls of a mapping made on the collection of name [n], and their answers *)
Definition on_collection (n : list Z) (c : SpecDb.map_call K V) (place : nat) : call (K := K) (V := V) :=
  match c with
  | SpecDb.CallSet k v => SetItem n place k v
  | SpecDb.CallGet k => GetItem n k
  | SpecDb.CallDel k => DelItem n k
  | SpecDb.CallIn k => Contains n k
  | SpecDb.CallLen => Len n
  | SpecDb.CallIter => Iter n
  end.
Definition answer_of (a : SpecDb.answer K V) : answer (K := K) (V := V) :=
  match a with
  | SpecDb.ANothing => ANone
  | SpecDb.AValue v => AData v
  | SpecDb.ABool b => ABool b
  | SpecDb.ANat m => ANat m
  | SpecDb.AKeys l => ATags l
  end.
(** [places] are the positions sqlite chooses for the rows *)
Fixpoint calls_on (n : list Z) (l : list (SpecDb.map_call K V)) (places : nat -> nat) : list (call (K := K) (V := V)) :=
  match l with
  | [] => []
  | c :: l => on_collection n c (places 0%nat) :: calls_on n l (fun i => places (S i))
  end.
Definition like_dict (r : res answer) (a : res (SpecDb.answer K V)) : Prop :=
  exists b, SpecDb.same_answer b a /\ r = (let* x := b in Ok (answer_of x)).

(** the calls of the Tree protocol on an implementation *)
Definition on_tree (c : call (K := K) (V := V)) : bool :=
  match c with TContains _ | TBase _ | TAdd _ _ | TPath _ | TChange _ _ | TSplit _ => true | _ => false end.
Definition tree_answer (TR : tree_impl K) (c : call (K := K) (V := V)) (t : tree_t TR) : tree_t TR * res (answer (K := K) (V := V)) :=
  match c with
  | TContains k => (t, Ok (ABool (tr_contains TR t k)))
  | TBase k => (t, let* x := tr_base TR t k in Ok (ATag x))
  | TAdd k b => (fst (tr_add TR k b t), let* _ := snd (tr_add TR k b t) in Ok ANone)
  | TPath k => (t, let* x := tr_path_to TR t k in Ok (APath x))
  | TChange k q => (fst (tr_change_parent TR k q t), let* _ := snd (tr_change_parent TR k q t) in Ok ANone)
  | TSplit k => (t, let* x := tr_get_split TR t k in Ok (ASplit x))
  | _ => (t, Ok ANone)
  end.
Fixpoint tree_answers (TR : tree_impl K) (l : list (call (K := K) (V := V))) (t : tree_t TR) : list (res (answer (K := K) (V := V))) :=
  match l with
  | [] => []
  | c :: l => snd (tree_answer TR c t) :: tree_answers TR l (fst (tree_answer TR c t))
  end.
End SpecDatabase.
