(** Lemmas about request parsing. *)
From Verif Require Import LibBase WireModel WireProofs CmdModel.

(** Wire-range conditions on arguments. *)
Definition str_ok (s : bytes) : Prop := lenN s < 2 ^ 32 /\ utf8 s = true.
Definition u8_ok (n : N) : Prop := n < 256.
Definition u32_ok (n : N) : Prop := n < 2 ^ 32.
Definition u64_ok (n : N) : Prop := n < 2 ^ 64.
Definition uuid_ok (i : bytes) : Prop := lenN i = 16.

Section CmdOk.
  Variable json_ok : N -> bytes -> bool.
  Definition js (op : N) (j : bytes) : Prop := str_ok j /\ json_ok op j = true.
  Definition cmd_ok (c : command) : Prop :=
    match c with
    | CEcho _ => True
    | SSet k j _ => str_ok k /\ js 2 j
    | SGet k => str_ok k | SDel k => str_ok k
    | QCreate n j => str_ok n /\ js 16 j
    | QPush n j _ => str_ok n /\ js 17 j
    | QConsume n j => str_ok n /\ js 18 j
    | QAck i n => uuid_ok i /\ str_ok n
    | QNack i n r => uuid_ok i /\ str_ok n /\ str_ok r
    | QExists n => str_ok n | QDelete n => str_ok n
    | QPeek n l o => str_ok n /\ u32_ok l /\ u32_ok o
    | QMove n i => str_ok n /\ uuid_ok i
    | QDelDlq n i => str_ok n /\ uuid_ok i
    | QPurge n => str_ok n
    | PPub t j _ => str_ok t /\ js 33 j
    | PSub t => str_ok t | PUnsub t => str_ok t
    | TCreate t j => str_ok t /\ js 48 j
    | TPub t _ => str_ok t
    | TFetch t g c gen l w => str_ok t /\ str_ok g /\ str_ok c /\ u64_ok gen /\ u32_ok l /\ u32_ok w
    | TJoin g t => str_ok g /\ str_ok t
    | TAck t g c gen s => str_ok t /\ str_ok g /\ str_ok c /\ u64_ok gen /\ u64_ok s
    | TSeek t g x => str_ok t /\ str_ok g /\ x <= 1
    | TExists t => str_ok t | TDelete t => str_ok t
    | TLeave t g c gen => str_ok t /\ str_ok g /\ str_ok c /\ u64_ok gen
    end.
End CmdOk.

(** forward direction *)
Lemma bind_some : forall A B (r : rdr A) (f : A -> rdr B) b a b',
  r b = Some (a, b') -> bind r f b = f a b'.
Proof. intros A B r f b a b' H; unfold bind; rewrite H; reflexivity. Qed.
Lemma read_n_app : forall x rest, read_n (lenN x) (x ++ rest) = Some (x, rest).
Proof.
  intros x rest; unfold read_n.
  destruct (N.ltb_spec (lenN (x ++ rest)) (lenN x)); [rewrite lenN_app in *; lia|].
  rewrite takeN_app_exact, dropN_app_exact; reflexivity.
Qed.
Lemma read_n_app' : forall n x rest, lenN x = n -> read_n n (x ++ rest) = Some (x, rest).
Proof. intros; subst; apply read_n_app. Qed.
Lemma read_u8_app : forall n rest, u8_ok n -> read_u8 (w_u8 n ++ rest) = Some (n, rest).
Proof.
  intros n rest H; unfold read_u8, w_u8. erewrite bind_some; [|apply read_n_app'; reflexivity].
  unfold ret. rewrite unbe_be_small; auto.
Qed.
Lemma read_u32_app : forall n rest, u32_ok n -> read_u32 (w_u32 n ++ rest) = Some (n, rest).
Proof.
  intros n rest H; unfold read_u32, w_u32. erewrite bind_some; [|apply read_n_app'; apply be_lenN].
  unfold ret. rewrite unbe_be_small; auto.
Qed.
Lemma read_u64_app : forall n rest, u64_ok n -> read_u64 (w_u64 n ++ rest) = Some (n, rest).
Proof.
  intros n rest H; unfold read_u64, w_u64. erewrite bind_some; [|apply read_n_app'; apply be_lenN].
  unfold ret. rewrite unbe_be_small; auto.
Qed.
Lemma read_string_app : forall s rest, str_ok s -> read_string (w_string s ++ rest) = Some (s, rest).
Proof.
  intros s rest [H1 H2]; unfold read_string, w_string. rewrite <- app_assoc.
  erewrite bind_some; [|apply (read_u32_app (lenN s)); exact H1].
  erewrite bind_some; [|apply read_n_app]. rewrite H2; reflexivity.
Qed.
Lemma read_json_app : forall json_ok op s rest, js json_ok op s ->
  read_json json_ok op (w_string s ++ rest) = Some (s, rest).
Proof.
  intros json_ok op s rest [H1 H2]; unfold read_json.
  erewrite bind_some; [|apply read_string_app; exact H1]. rewrite H2; reflexivity.
Qed.
Lemma read_uuid_app : forall i rest, uuid_ok i -> read_uuid (i ++ rest) = Some (i, rest).
Proof. intros; apply read_n_app'; assumption. Qed.

Ltac rstep :=
  first [ erewrite bind_some; [|apply read_string_app; assumption]
        | erewrite bind_some; [|apply read_json_app; assumption]
        | erewrite bind_some; [|apply read_uuid_app; assumption]
        | erewrite bind_some; [|apply read_u8_app; assumption]
        | erewrite bind_some; [|apply read_u32_app; assumption]
        | erewrite bind_some; [|apply read_u64_app; assumption] ].

Definition broker_of (c : command) : option broker :=
  match c with
  | CEcho _ => None
  | SSet _ _ _ | SGet _ | SDel _ => Some BStore
  | QCreate _ _ | QPush _ _ _ | QConsume _ _ | QAck _ _ | QNack _ _ _ | QExists _ | QDelete _
  | QPeek _ _ _ | QMove _ _ | QDelDlq _ _ | QPurge _ => Some BQueue
  | PPub _ _ _ | PSub _ | PUnsub _ => Some BPubSub
  | _ => Some BStream
  end.

Section Par.
  Variable json_ok : N -> bytes -> bool.

  (** with trailing bytes allowed when the command has no trailing payload *)
  Lemma parse_sdk : forall c b rest, cmd_ok json_ok c -> broker_of c = Some b ->
    (match c with SSet _ _ _ | QPush _ _ _ | PPub _ _ _ | TPub _ _ => rest = [] | _ => True end) ->
    parse_of json_ok b (sdk_opcode c) (sdk_args c ++ rest) = Some (c, rest).
  Proof.
    intros c b rest Hok Hb Hr.
    destruct c; simpl in Hb; inv Hb; cbn [cmd_ok] in Hok;
      unfold sdk_args; cbn [sdk_head sdk_tail parse_of sdk_opcode];
      rewrite ?app_nil_r; repeat rewrite <- app_assoc;
      repeat match goal with H : _ /\ _ |- _ => destruct H end.
    all: try (cbv beta iota delta [parse_store parse_queue parse_pubsub parse_stream];
      repeat match goal with |- context [?a =? ?b] => change (a =? b) with false || change (a =? b) with true; cbv iota end;
      repeat rstep; try reflexivity).
    all: try (subst rest; rewrite ?app_nil_r; unfold bind, read_remaining, ret; reflexivity).
    (* seek *)
    all: try (erewrite bind_some; [|apply read_u8_app; unfold u8_ok; lia];
      match goal with H : ?x <= 1 |- _ => destruct (N.leb_spec x 1); [reflexivity|lia] end).
  Qed.

  Lemma dispatch_sdk : forall c, cmd_ok json_ok c -> dispatch json_ok (sdk_opcode c) (sdk_args c) = DCmd c.
  Proof.
    intros c Hok.
    destruct (broker_of c) as [b|] eqn:Hb.
    - assert (D : dispatch json_ok (sdk_opcode c) (sdk_args c) = run_broker json_ok b (sdk_opcode c) (sdk_args c)).
      { destruct c; inv Hb; reflexivity. }
      rewrite D. unfold run_broker.
      pose proof (parse_sdk c b [] Hok Hb) as P. rewrite app_nil_r in P. rewrite P; auto.
      destruct c; auto.
    - destruct c; inv Hb. reflexivity.
  Qed.
End Par.

(** inverse direction *)
Lemma bind_inv : forall A B (r : rdr A) (f : A -> rdr B) b x,
  bind r f b = Some x -> exists a b', r b = Some (a, b') /\ f a b' = Some x.
Proof. intros A B r f b x H; unfold bind in H. destruct (r b) as [[a b']|]; [eauto|discriminate]. Qed.
Lemma read_n_inv : forall n b x b', read_n n b = Some (x, b') -> b = x ++ b' /\ lenN x = n.
Proof.
  intros n b x b' H; unfold read_n in H. destruct (N.ltb_spec (lenN b) n); [discriminate|]. inv H.
  rewrite takeN_dropN, lenN_takeN. split; auto; lia.
Qed.
Lemma read_int_inv : forall k (w : N -> bytes) b n b',
  (forall m, w m = be k m) ->
  bytes_ok b -> (x <- read_n (N.of_nat k) ;; ret (unbe x)) b = Some (n, b') ->
  b = w n ++ b' /\ n < 256 ^ N.of_nat k /\ bytes_ok b'.
Proof.
  intros k w b n b' Hw Hb H. apply bind_inv in H. destruct H as (x & b2 & H1 & H2).
  apply read_n_inv in H1. destruct H1 as [-> Hl]. unfold ret in H2. inv H2.
  apply bytes_ok_app in Hb. destruct Hb as [Hx Hb'].
  assert (length x = k) by (unfold lenN in Hl; lia).
  rewrite Hw. split; [|split; auto].
  - f_equal. subst k. symmetry; apply be_unbe; auto.
  - rewrite <- Hl. apply unbe_bound; auto.
Qed.
Lemma read_u8_inv : forall b n b', bytes_ok b -> read_u8 b = Some (n, b') ->
  b = w_u8 n ++ b' /\ u8_ok n /\ bytes_ok b'.
Proof. intros b n b' Hb H. apply (read_int_inv 1 w_u8 b n b') in H; auto. Qed.
Lemma read_u32_inv : forall b n b', bytes_ok b -> read_u32 b = Some (n, b') ->
  b = w_u32 n ++ b' /\ u32_ok n /\ bytes_ok b'.
Proof. intros b n b' Hb H. apply (read_int_inv 4 w_u32 b n b') in H; auto. Qed.
Lemma read_u64_inv : forall b n b', bytes_ok b -> read_u64 b = Some (n, b') ->
  b = w_u64 n ++ b' /\ u64_ok n /\ bytes_ok b'.
Proof. intros b n b' Hb H. apply (read_int_inv 8 w_u64 b n b') in H; auto. Qed.
Lemma read_string_inv : forall b s b', bytes_ok b -> read_string b = Some (s, b') ->
  b = w_string s ++ b' /\ str_ok s /\ bytes_ok b'.
Proof.
  intros b s b' Hb H. unfold read_string in H.
  apply bind_inv in H. destruct H as (len & b2 & H1 & H2).
  apply read_u32_inv in H1; auto. destruct H1 as (-> & Hl & Hb2).
  apply bind_inv in H2. destruct H2 as (x & b3 & H3 & H4).
  apply read_n_inv in H3. destruct H3 as [-> Hlen].
  destruct (utf8 x) eqn:E; [|discriminate]. unfold ret in H4; inv H4.
  unfold w_string, w_u32 in *. rewrite <- app_assoc. split; auto. split.
  - split; auto.
  - apply bytes_ok_app in Hb2; tauto.
Qed.
Lemma read_json_inv : forall json_ok op b s b', bytes_ok b -> read_json json_ok op b = Some (s, b') ->
  b = w_string s ++ b' /\ js json_ok op s /\ bytes_ok b'.
Proof.
  intros json_ok op b s b' Hb H. unfold read_json in H.
  apply bind_inv in H. destruct H as (x & b2 & H1 & H2).
  apply read_string_inv in H1; auto. destruct H1 as (-> & Hs & Hb2).
  destruct (json_ok op x) eqn:E; [|discriminate]. unfold ret in H2; inv H2.
  split; auto. split; auto. split; auto.
Qed.
Lemma read_uuid_inv : forall b s b', bytes_ok b -> read_uuid b = Some (s, b') ->
  b = s ++ b' /\ uuid_ok s /\ bytes_ok b'.
Proof.
  intros b s b' Hb H. apply read_n_inv in H. destruct H as [-> H].
  apply bytes_ok_app in Hb. tauto.
Qed.

Ltac invstep :=
  match goal with
  | H : bind _ _ _ = Some _ |- _ => apply bind_inv in H; destruct H as (? & ? & ? & ?)
  | H : read_string ?b = Some _ |- _ => apply read_string_inv in H; [destruct H as (-> & ? & ?)|assumption]
  | H : read_json _ _ ?b = Some _ |- _ => apply read_json_inv in H; [destruct H as (-> & ? & ?)|assumption]
  | H : read_uuid ?b = Some _ |- _ => apply read_uuid_inv in H; [destruct H as (-> & ? & ?)|assumption]
  | H : read_u8 ?b = Some _ |- _ => apply read_u8_inv in H; [destruct H as (-> & ? & ?)|assumption]
  | H : read_u32 ?b = Some _ |- _ => apply read_u32_inv in H; [destruct H as (-> & ? & ?)|assumption]
  | H : read_u64 ?b = Some _ |- _ => apply read_u64_inv in H; [destruct H as (-> & ? & ?)|assumption]
  | H : read_remaining _ = Some _ |- _ => unfold read_remaining in H; inv H
  | H : ret _ _ = Some _ |- _ => unfold ret in H; inv H
  | H : fail _ = Some _ |- _ => discriminate H
  end.

Section Inv.
  Variable json_ok : N -> bytes -> bool.
  Lemma parse_inv : forall b op payload c rest, bytes_ok payload ->
    parse_of json_ok b op payload = Some (c, rest) ->
    payload = sdk_args c ++ rest /\ cmd_ok json_ok c /\ sdk_opcode c = op /\ broker_of c = Some b.
  Proof.
    intros b op payload c rest Hb H.
    destruct b; cbn [parse_of] in H;
      unfold parse_store, parse_queue, parse_pubsub, parse_stream in H;
      repeat match type of H with
      | (if ?op =? ?k then _ else _) _ = _ =>
          let E := fresh "E" in destruct (N.eqb_spec op k) as [E|E]; [subst op; repeat invstep|]
      end; try discriminate; unfold sdk_args; cbn [sdk_head sdk_tail cmd_ok sdk_opcode broker_of];
      rewrite ?app_nil_r; repeat rewrite <- app_assoc; auto 12.
    (* seek *)
    match goal with H : (if ?x <=? 1 then _ else _) _ = _ |- _ =>
      destruct (N.leb_spec x 1) as [Hle|Hle]; [unfold ret in H; inv H|discriminate H] end.
    cbn [sdk_head sdk_tail cmd_ok sdk_opcode broker_of]. rewrite ?app_nil_r; repeat rewrite <- app_assoc.
    auto 12.
  Qed.

  Lemma dispatch_sound : forall op payload c, bytes_ok payload -> op <> 0 ->
    dispatch json_ok op payload = DCmd c ->
    exists rest, payload = sdk_args c ++ rest /\ cmd_ok json_ok c /\ sdk_opcode c = op.
  Proof.
    intros op payload c Hb Hop H. unfold dispatch in H.
    destruct (N.eqb_spec op 0); [contradiction|].
    repeat match type of H with (if ?x then _ else _) = _ => destruct x end; try discriminate;
      unfold run_broker in H;
      match type of H with context [parse_of ?j ?b ?o ?p] => destruct (parse_of j b o p) as [[c' r]|] eqn:E end;
      inv H; apply parse_inv in E; auto; exists r; tauto.
  Qed.
End Inv.

(** The fixed-layout part cut anywhere is an error.  The trailing payload of
    SET/PUSH/PUB is "the rest", so only cuts inside the fixed part are errors. *)
Section Trunc.
  Variable json_ok : N -> bytes -> bool.
  Definition with_tail (c : command) (x : bytes) : command :=
    match c with
    | CEcho _ => CEcho x | SSet k j _ => SSet k j x | QPush n j _ => QPush n j x
    | PPub t j _ => PPub t j x | TPub t _ => TPub t x | c => c
    end.
  Definition has_tail (c : command) : bool :=
    match c with CEcho _ | SSet _ _ _ | QPush _ _ _ | PPub _ _ _ | TPub _ _ => true | _ => false end.

  Lemma parse_head_then : forall c b x, cmd_ok json_ok c -> broker_of c = Some b ->
    parse_of json_ok b (sdk_opcode c) (sdk_head c ++ x) =
      if has_tail c then Some (with_tail c x, []) else Some (c, x).
  Proof.
    intros c b x Hok Hb. destruct (has_tail c) eqn:Ht.
    - assert (H : parse_of json_ok b (sdk_opcode (with_tail c x)) (sdk_args (with_tail c x) ++ []) = Some (with_tail c x, [])).
      { apply parse_sdk; destruct c; try discriminate; cbn in *; auto. }
      rewrite app_nil_r in H. destruct c; try discriminate; exact H.
    - assert (Et : sdk_args c = sdk_head c).
      { destruct c; try discriminate; unfold sdk_args; cbn [sdk_tail]; apply app_nil_r. }
      rewrite <- Et. apply parse_sdk; auto. destruct c; try discriminate; auto.
  Qed.

  Lemma truncated_head : forall c b p s, cmd_ok json_ok c -> broker_of c = Some b -> bytes_ok p ->
    p ++ s = sdk_head c -> s <> [] -> parse_of json_ok b (sdk_opcode c) p = None.
  Proof.
    intros c b p s Hok Hb Hp E Hs.
    destruct (parse_of json_ok b (sdk_opcode c) p) as [[c' rest]|] eqn:D; auto. exfalso.
    pose proof (parse_inv _ _ _ _ _ _ Hp D) as (Ep & Hok' & Hop & Hb').
    pose proof (parse_head_then c b [] Hok Hb) as P1. rewrite app_nil_r, <- E, Ep in P1.
    unfold sdk_args in P1. rewrite <- !app_assoc in P1.
    pose proof (parse_head_then c' b (sdk_tail c' ++ rest ++ s) Hok' Hb') as P2. rewrite Hop in P2.
    rewrite P1 in P2.
    assert (Q : forall (u v : bytes), u ++ v ++ s = [] -> False).
    { intros u v H. apply app_eq_nil in H. destruct H as [_ H]. apply app_eq_nil in H. tauto. }
    assert (Q2 : forall (v : bytes), v ++ s = [] -> False).
    { intros v H. apply app_eq_nil in H. tauto. }
    destruct c; simpl in Hb; inv Hb; destruct c'; simpl in Hop; try discriminate; simpl in P2;
      injection P2; intros; eauto;
      match goal with H : [] = _ |- _ => symmetry in H; eauto end.
  Qed.
  Lemma truncated_dispatch : forall c p s, cmd_ok json_ok c -> bytes_ok p ->
    p ++ s = sdk_head c -> s <> [] ->
    exists b, dispatch json_ok (sdk_opcode c) p = DParseError b.
  Proof.
    intros c p s Hok Hp E Hs. destruct (broker_of c) as [b|] eqn:Hb.
    - exists b. assert (D : dispatch json_ok (sdk_opcode c) p = run_broker json_ok b (sdk_opcode c) p).
      { destruct c; inv Hb; reflexivity. }
      rewrite D; unfold run_broker. rewrite (truncated_head c b p s); auto.
    - destruct c; inv Hb. simpl in E. apply app_eq_nil in E. tauto.
  Qed.
End Trunc.

(** every opcode has exactly one owner *)
Definition owns (op : N) (b : broker) : Prop := opcode_min b <= op <= opcode_max b.
Lemma ranges_disjoint : forall op b1 b2, owns op b1 -> owns op b2 -> b1 = b2.
Proof. intros op b1 b2; unfold owns; destruct b1, b2; cbn [opcode_min opcode_max]; intros; auto; lia. Qed.
Lemma owns_in_range : forall op b, in_range b op = true <-> owns op b.
Proof. intros; unfold in_range, owns. rewrite andb_true_iff, !N.leb_le. tauto. Qed.
Lemma dispatch_owner : forall json_ok op payload b, owns op b ->
  dispatch json_ok op payload = run_broker json_ok b op payload.
Proof.
  intros json_ok op payload b H. unfold dispatch, in_range, owns in *.
  destruct b; cbn [opcode_min opcode_max] in *;
  destruct (N.eqb_spec op 0); try lia;
  repeat match goal with |- context [?x <=? ?y] => destruct (N.leb_spec x y); try lia end; reflexivity.
Qed.
Lemma dispatch_none : forall json_ok op payload, op <> 0 -> (forall b, ~ owns op b) ->
  dispatch json_ok op payload = DUnknown.
Proof.
  intros json_ok op payload H0 H. unfold dispatch.
  destruct (N.eqb_spec op 0); [contradiction|].
  repeat match goal with |- context [in_range ?b op] =>
    destruct (in_range b op) eqn:?E; [exfalso; apply (H b); apply owns_in_range; assumption|] end.
  reflexivity.
Qed.
Lemma sdk_opcode_owner : forall c b, broker_of c = Some b -> owns (sdk_opcode c) b.
Proof. intros c b H; destruct c; inv H; unfold owns; cbn; lia. Qed.
Lemma sdk_opcode_inj : forall c d, sdk_opcode c = sdk_opcode d -> broker_of c = broker_of d.
Proof. intros c d; destruct c, d; simpl; intro H; try discriminate; reflexivity. Qed.
