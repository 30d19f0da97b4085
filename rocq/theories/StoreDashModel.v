(** The store page of the dashboard (src/brokers/store/http.rs): GET
    /api/store?limit=…&offset=…&search=… *)
From Verif Require Import LibBase LibMap StoreModel.

Section Page.
  (** [show]: payload_to_json_value (transport/http/payload.rs, ValueModel) *)
  Variable V : Type.
  Variable show : bytes -> V.
  (** http.rs:26-31; [k_exp]: the time of day, before it becomes text; None: "Never" *)
  Record krow := mkKrow { k_key : bytes; k_value : V; k_exp : option N }.
  (** http.rs:19-24 *)
  Record kpage := mkKpage { p_keys : list krow; p_total : N; p_offset : N; p_limit : N }.
  (** http.rs:56-72: [now2], [sysnow]: the two clocks, read after the scan (saturating_duration_since) *)
  Definition krow_of (now2 sysnow : N) (kv : bytes * sentry) : krow :=
    mkKrow (fst kv) (show (e_val (snd kv))) (match e_exp (snd kv) with Some x => Some (sysnow + (x - now2)) | None => None end).
  (** http.rs:44-75; [now]: the clock read by the scan (manager.rs:22), [it]: the map in the
      order it is visited. (The system clock is read anew for each row; here once.) *)
  Definition store_page (now now2 sysnow : N) (limit offset : option N) (search : option bytes) (it : store) : kpage :=
    let lim := match limit with Some n => n | None => 500 end in
    let off := match offset with Some n => n | None => 0 end in
    let (es, total) := scan now lim off search it in
    mkKpage (map (krow_of now2 sysnow) es) total off lim.
End Page.
