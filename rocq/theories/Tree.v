(** Model of /repo/src/gaspra/memory_tree.py.  Tags are of any type [K] with
    decidable equality; [None] is not a tag.  An operation that changes the tree
    returns the new tree also when it raises. *)
From Verif Require Import Base.

Section Tree.
Context {K : Type} {E : Teq K}.

(** memory_tree.py:7-14, [Node]. *)
Record node := mkNode {
  order_id : nat;
  parent : option K;
  children : list K;
  height : nat;
  size : nat;
  base : option K
}.

(** memory_tree.py:17-19, [MemoryTree.nodes]. *)
Definition nodes := dict K node.

(** memory_tree.py:21-25. *)
Definition m_contains (s : nodes) (tag : K) : bool := dmem s tag.
Definition m_base_version (s : nodes) (tag : K) : res (option K) :=
  match dget s tag with Some n => Ok (base n) | None => Err KeyError end.

(** memory_tree.py:27-29. *)
Definition m_add (tag : K) (existing_head : option K) (s : nodes) : nodes * res unit :=
  (dset s tag (mkNode (length s) None [] 1 1 existing_head), Ok tt).

(** memory_tree.py:31-45; the loop visits a node twice iff it never ends, so
    [S (length s)] rounds are enough.  The result is [None] for an unknown tag. *)
Fixpoint path_loop (fuel : nat) (s : nodes) (tag : option K) (path : list K) : res (option (list K)) :=
  match tag with
  | None => Ok (Some (rev path))
  | Some t =>
    match fuel with
    | 0 => Err OutOfFuel
    | S fuel =>
      match dget s t with
      | Some n => path_loop fuel s (parent n) (path ++ [t])
      | None => Ok None
      end
    end
  end.
Definition m_path_to (s : nodes) (tag : K) : res (option (list K)) :=
  path_loop (S (length s)) s (Some tag) [].

(** memory_tree.py:106-114: largest height and total size of some children. *)
Fixpoint child_metrics (s : nodes) (l : list K) : res (nat * nat) :=
  match l with
  | [] => Ok (0, 0)
  | c :: l =>
    match dget s c with
    | None => Err KeyError
    | Some n =>
      let* r := child_metrics s l in
      Ok (Nat.max (height n) (fst r), size n + snd r)
    end
  end.
Definition set_metrics (n : node) (h z : nat) : node :=
  mkNode (order_id n) (parent n) (children n) h z (base n).
Definition set_parent (n : node) (p : option K) : node :=
  mkNode (order_id n) p (children n) (height n) (size n) (base n).
Definition set_children (n : node) (l : list K) : node :=
  mkNode (order_id n) (parent n) l (height n) (size n) (base n).

(** memory_tree.py:98-115, [_update_metrics]; fuel as in [path_loop]. *)
Fixpoint update_metrics (fuel : nat) (tag : option K) (s : nodes) : nodes * res unit :=
  match tag with
  | None => (s, Ok tt)
  | Some t =>
    match fuel with
    | 0 => (s, Err OutOfFuel)
    | S fuel =>
      match dget s t with
      | None => (s, Err KeyError)
      | Some n =>
        match child_metrics s (children n) with
        | Err e => (s, Err e)
        | Ok (h, z) => update_metrics fuel (parent n) (dset s t (set_metrics n (h + 1) (z + 1)))
        end
      end
    end
  end.

(** [list.remove]: the first occurrence. *)
Fixpoint remove1 (x : K) (l : list K) : list K :=
  match l with
  | [] => []
  | y :: l => if teq y x then l else y :: remove1 x l
  end.
Definition mem_tag (x : K) (l : list K) : bool := existsb (fun y => teq y x) l.

(** memory_tree.py:47-68, [change_parent]. *)
Definition m_change_parent (tag : K) (new_parent : option K) (s : nodes) : nodes * res unit :=
  let fuel := S (length s) in
  match dget s tag with
  | None => (s, Err KeyError)
  | Some original =>
    (* 51-55: remove tag from its parent's children *)
    match (match parent original with
           | None => Ok s
           | Some q => match dget s q with
                       | None => Err KeyError
                       | Some nq => Ok (if mem_tag tag (children nq)
                                        then dset s q (set_children nq (remove1 tag (children nq)))
                                        else s)
                       end
           end) with
    | Err e => (s, Err e)
    | Ok s1 =>
      (* 58-59; the children list of the old node object, possibly just changed,
         is shared by the new one *)
      let own := match dget s1 tag with Some n => children n | None => children original end in
      let s2 := dset s1 tag (set_children (set_parent original new_parent) own) in
      (* 62-64 *)
      let '(s3, r3) :=
        match new_parent with
        | None => (s2, Ok tt)
        | Some r => match dget s2 r with
                    | None => (s2, Err KeyError)
                    | Some nr => update_metrics fuel (Some r)
                                   (dset s2 r (set_children nr (children nr ++ [tag])))
                    end
        end in
      match r3 with
      | Err e => (s3, Err e)
      | Ok _ =>
        (* 67-68 *)
        update_metrics fuel (parent original) s3
      end
    end
  end.

(** memory_tree.py:87-90: the index with the largest (height, order_id, index). *)
Definition triple_ltb (a b : nat * nat * nat) : bool :=
  let '(a1, a2, a3) := a in
  let '(b1, b2, b3) := b in
  (a1 <? b1) || ((a1 =? b1) && ((a2 <? b2) || ((a2 =? b2) && (a3 <? b3)))).
Fixpoint best_loop (s : nodes) (index : nat) (best : option (nat * nat * nat)) (l : list K)
  : res (nat * nat * nat) :=
  match l with
  | [] => match best with Some b => Ok b | None => Err ValueError end
  | c :: l =>
    match dget s c with
    | None => Err KeyError
    | Some n =>
      let here := (height n, order_id n, index) in
      best_loop s (S index)
        (Some (match best with
               | Some b => if triple_ltb b here then here else b
               | None => here
               end)) l
    end
  end.

(** memory_tree.py:70-96, [get_split].  The loop stops as soon as [depth] reaches
    the height of the node at hand, so it makes fewer rounds than the largest
    height in the tree. *)
Fixpoint split_loop (fuel depth : nat) (s : nodes) (tag : K) (n : node) (path : list K)
  : res (K * list K) :=
  if depth <? height n then
    match fuel with
    | 0 => Err OutOfFuel
    | S fuel =>
      let* b := best_loop s 0 None (children n) in
      match nth_error (children n) (snd b) with
      | None => Err IndexError
      | Some t =>
        match dget s t with
        | None => Err KeyError
        | Some n' => split_loop fuel (S depth) s t n' (path ++ [t])
        end
      end
    end
  else Ok (tag, path).
Definition max_height (s : nodes) : nat := fold_right Nat.max 0 (map height (dvalues s)).
Definition m_get_split (s : nodes) (tag : K) : res (K * list K) :=
  match dget s tag with
  | None => Err KeyError
  | Some n => split_loop (max_height s) 1 s tag n [tag]
  end.
End Tree.
Arguments node : clear implicits.
Arguments nodes : clear implicits.
