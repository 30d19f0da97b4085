(** The pub/sub page of the dashboard: GET /api/pubsub (src/brokers/pub-sub/http.rs:88-97)
    and PubSubManager::scan_topics (manager.rs:200-249). *)
From Verif Require Import LibBase LibMap StoreModel PubSubModel.

(** snapshot.rs:13-18 (TopicSnapshot): full_path, subscribers, retained_payload *)
Definition trow := (bytes * N * option bytes)%type.
Definition r_name (r : trow) : bytes := fst (fst r).

(** `search.map_or(true, |s| text.contains(s))` (radix_tree.rs:229, manager.rs:227,234) *)
Definition hits (search : option bytes) (text : bytes) : bool :=
  match search with Some s => contains s text | None => true end.

(** radix_tree.rs:234-236: the payload unless expired *)
Definition shown_ret (now : N) (r : option retained) : option bytes :=
  match r with Some v => if is_expired now v then None else Some (rt_data v) | None => None end.

(** radix_tree.rs:227-255. Simplification: one clock reading per traversal; children in
    the list's order (a HashMap in the code; the caller sorts). *)
Fixpoint collect_filtered (now : N) (search : option bytes) (path : bytes) (n : node) {struct n} : list trow :=
  let (ch, p, h, s, r) := n in
  (match path with
   | [] => []
   | _ => if hits search path && (negb (is_nil s) || negb (is_none r)) then [(path, lenN s, shown_ret now r)] else []
   end) ++
  flat_map (fun kv => collect_filtered now search (join1 path (fst kv)) (snd kv)) ch ++
  (match p with Some pn => collect_filtered now search (join1 path lplus) pn | None => [] end) ++
  (match h with Some hn => collect_filtered now search (join1 path lhash) hn | None => [] end).

(** `str::cmp`: byte-wise lexicographic *)
Fixpoint ble (a b : bytes) : bool :=
  match a, b with
  | [], _ => true
  | _ :: _, [] => false
  | x :: a', y :: b' => if x <? y then true else if y <? x then false else ble a' b'
  end.
(** `sort_by(|a, b| a.full_path.cmp(&b.full_path))` (manager.rs:207): a stable sort *)
Fixpoint row_insert (x : trow) (l : list trow) : list trow :=
  match l with
  | [] => [x]
  | y :: l' => if ble (r_name x) (r_name y) then x :: l else y :: row_insert x l'
  end.
Definition row_sort (l : list trow) : list trow := fold_right row_insert [] l.

(** manager.rs:210-215: `all_topics[offset..end]`. [offset + limit] is a usize; where the
    sum wraps, offset is not below the number of rows and the page is empty. *)
Definition page {A} (limit offset : N) (l : list A) : list A :=
  if offset <? lenN l then takeN (N.min (offset + limit) (lenN l) - offset) (dropN offset l) else [].

(** manager.rs:222-241: patterns of all clients with '#', and those with '+' but no '#' *)
Definition hashc : N := 35.
Definition plusc : N := 43.
Definition multi_rows (search : option bytes) (cl : list (N * cinfo)) : list (bytes * N) :=
  flat_map (fun e => flat_map (fun sub => if existsb (N.eqb hashc) sub && hits search sub then [(sub, fst e)] else []) (ci_subs (snd e))) cl.
Definition single_rows (search : option bytes) (cl : list (N * cinfo)) : list (bytes * N) :=
  flat_map (fun e => flat_map (fun sub => if negb (existsb (N.eqb hashc) sub) && existsb (N.eqb plusc) sub && hits search sub then [(sub, fst e)] else []) (ci_subs (snd e))) cl.

(** snapshot.rs:6-11 *)
Record psnap := mkSnap { sn_active : N; sn_total : N; sn_topics : list trow; sn_multi : list (bytes * N); sn_single : list (bytes * N) }.
(** manager.rs:200-249. The tree is read under its lock and the registry afterwards; here
    nothing happens in between. *)
Definition scan_topics (now limit offset : N) (search : option bytes) (s : pubsub) : psnap :=
  let all := row_sort (collect_filtered now search [] (ps_tree s)) in
  mkSnap (lenN (ps_cl s)) (lenN all) (page limit offset all) (multi_rows search (ps_cl s)) (single_rows search (ps_cl s)).
(** http.rs:92-95: at most 500 rows, 50 if the request does not say *)
Definition get_pubsub (now : N) (limit offset : option N) (search : option bytes) (s : pubsub) : psnap :=
  scan_topics now (N.min (match limit with Some l => l | None => 50 end) 500) (match offset with Some o => o | None => 0 end) search s.
