(** Model of DuckLib/trie.c: a radix tree from byte strings to indices.
    Simplifications: node arrays are Coq lists; the allocator never fails;
    bytes and indices are integers (no operation on them but comparison is used). *)
From Coq Require Import ZArith List Bool.
Import ListNotations.
Open Scope Z_scope.

(** A name and its length (DuckLib/trie.h 8-17). *)
Definition bytes := list Z.

(** DuckLib/trie.h dl_trie_node_t: an index and parallel arrays of child names and child nodes
    (DuckLib/trie.h 8-17). *)
Inductive trie := Node (index : Z) (children : list (bytes * trie)).

(** The fields of a node (DuckLib/trie.h 8-17). *)
Definition node_index (t : trie) : Z := match t with Node i _ => i end.
Definition node_children (t : trie) : list (bytes * trie) := match t with Node _ ch => ch end.

(** DuckLib/trie.c:9-16 dl_trie_init. *)
Definition trie_init (nullIndex : Z) : trie := Node nullIndex [].

(** The three ways the comparison loop over a node's name can leave
    (DuckLib/trie.c:156-257 in insert, 300-325 in find):
    the name is used up, the key is used up, or the bytes at an offset differ.
    The name is tested first, as in both C loops. *)
Inductive scan_result := NameEnd (i : nat) | KeyEnd (i : nat) | Differ (i : nat).

(** The comparison loop (DuckLib/trie.c:156-257, 300-325). *)
Fixpoint scan (name key : bytes) (i : nat) : scan_result :=
  match name with
  | [] => NameEnd i
  | c :: name' =>
      match key with
      | [] => KeyEnd i
      | d :: key' => if d =? c then scan name' key' (S i) else Differ i
      end
  end.

(** DuckLib/trie.c:142-261 dl_trie_insert_helper.
    [None] is [*success == dl_false]; otherwise the updated node and its possibly shortened name. *)
Fixpoint insert_helper (node : trie) (name key : bytes) (index : Z) {struct node}
  : option (trie * bytes) :=
  match node with
  | Node oldIndex children =>
      match scan name key 0 with
      | NameEnd i =>
          if Nat.eqb (length name) (length key) then Some (Node index children, name)
          else
            let rest := skipn i key in
            (* DuckLib/trie.c:164-174: first child that accepts the rest of the key *)
            let fix try_children (ch : list (bytes * trie)) : option (list (bytes * trie)) :=
              match ch with
              | [] => None
              | (n, t) :: ch' =>
                  match insert_helper t n rest index with
                  | Some (t', n') => Some ((n', t') :: ch')
                  | None =>
                      match try_children ch' with
                      | Some ch'' => Some ((n, t) :: ch'')
                      | None => None
                      end
                  end
              end in
            match try_children children with
            | Some children' => Some (Node oldIndex children', name)
            | None => Some (Node oldIndex (children ++ [(rest, Node index [])]), name)
            end
      | KeyEnd i =>
          (* DuckLib/trie.c:184-213: split, the key ends inside this name *)
          Some (Node index [(skipn i name, node)], firstn i name)
      | Differ O => None
      | Differ i =>
          (* DuckLib/trie.c:215-255: split into a node with two children *)
          Some (Node (-1) [(skipn i name, node); (skipn i key, Node index [])], firstn i name)
      end
  end.

(** DuckLib/trie.c:263-270 dl_trie_insert: the root has the empty name. *)
Definition trie_insert (t : trie) (key : bytes) (index : Z) : trie :=
  match insert_helper t [] key index with
  | Some (t', _) => t'
  | None => t
  end.

(** DuckLib/trie.c:272-327 dl_trie_find. *)
Fixpoint trie_find (node : trie) (key : bytes) {struct node} : Z :=
  match node with
  | Node index children =>
      match key with
      | [] => index
      | _ =>
          let fix over (ch : list (bytes * trie)) : Z :=
            match ch with
            | [] => -1
            | (n, t) :: ch' =>
                match scan n key 0 with
                | NameEnd i => trie_find t (skipn i key)
                | KeyEnd _ => -1
                | Differ O => over ch'
                | Differ _ => -1
                end
            end in
          over children
      end
  end.

(** A history of insertions on a fresh trie (DuckLib/trie.c 263-270). *)
Definition trie_run (nullIndex : Z) (h : list (bytes * Z)) : trie :=
  fold_left (fun t kv => trie_insert t (fst kv) (snd kv)) h (trie_init nullIndex).
