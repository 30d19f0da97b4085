(** Property C108: the values published to a stream with the SDK are what the callbacks of
    its groups get. *)
From Verif Require Import LibBase LibMap Utf8 Crc32 WireModel CmdModel ValueModel ValueProofs JsonModel JsonProofs OptionsModel OptionsProofs PropValue PropJson PropSdkStore
  SdkLoopModel SdkStreamModel SdkStreamSpec StreamTopicModel StreamGroupModel StreamStoreModel StreamSysModel SdkStreamSys SdkMsgModel SdkStreamNetModel SdkStreamNetSpec SdkStreamNetServer SdkStreamNetProofs SdkStreamNetOnce SdkStreamNetEnd PropStreamGroup PropWakeStream PropSdkStreamNet.
Notation V := (value jv).
Notation dec := (decode_any jv js_parse JNull).

(** ** Specification *)
(** [x] is what an application gets for the value [v] *)
Definition comes_as (v x : V) : Prop := PropSdkStore.reads v x /\ (exact v -> x = v).
(** an application has published [v], and the topic has stored it as record [m] *)
Definition value_of (L : list nev) (m : msg) (v : V) : Prop :=
  In m (published L) /\ exists name c, gives v /\ sdk_append name v = Some c /\ append_served (m_ts m) c = Some (SPub (m_ts m) (m_pay m)).
(** all records come from SDKs *)
Definition all_values (L : list nev) : Prop := forall m, In m (published L) -> exists v, value_of L m v.
(** a callback of group [gid] was started with [x] for record [m] and ended well *)
Definition handled_as grp gid (m : msg) (x : V) L : Prop := handled grp gid m L /\ dec (m_pay m) = Some x.

Lemma value_read L m v : value_of L m v -> exists x, dec (m_pay m) = Some x /\ comes_as v x.
Proof.
  intros (_ & name & c & G & A & S). destruct (given_read v G) as (b & x & E & D & R & X). unfold sdk_append in A. rewrite E in A. injection A as <-. cbn [append_served] in S. injection S as <-. exists x. split; [auto|split; auto].
Qed.

(** * C108 *)
(** When a group is told that it has got as far as [f], then for every value published up
    to there a callback got the value and ended well, or (as in C96) someone else
    acknowledged it, or it was given out as often as allowed, or a seek to the end skipped
    it, or retention removed it. *)
Theorem C108_no_loss : forall crc cfg smax conc grp lim soft os, (forall b, crc b < 2 ^ 32) -> 1 <= max_del cfg -> (forall c, lenN (grp c) < 65536) ->
  envs_ok crc cfg smax grp conc lim (net0 soft) os -> let y := nrun crc cfg smax conc grp lim soft os in let L := n_log y in
  forall gid c conn f gen m v, snd (sstep crc cfg smax (n_s y) (SJoin gid c conn)) = RJoin f gen -> value_of L m v -> m_seq m <= f ->
  (exists x, handled_as grp gid m x L /\ comes_as v x) \/ acked_elsewhere gid (m_seq m) L \/ given_up crc cfg smax soft gid (m_seq m) L \/ skipped crc cfg smax soft gid (m_seq m) L \/ removed crc cfg smax soft (m_seq m) L.
Proof.
  intros crc cfg smax conc grp lim soft os C MD SH E y L gid c conn f gen m v J P Q. destruct (value_read L m v P) as (x & D & X).
  destruct (C96_no_loss crc cfg smax conc grp lim soft os C MD SH E gid c conn f gen m J (proj1 P) Q) as [H|H]; [left; exists x; split; [split; auto|auto]|right; exact H].
Qed.
Print Assumptions C108_no_loss.
(** Every callback gets a value that was published. *)
Theorem C108_genuine : forall crc cfg smax conc grp lim soft os, (forall b, crc b < 2 ^ 32) -> 1 <= max_del cfg -> (forall c, lenN (grp c) < 65536) ->
  envs_ok crc cfg smax grp conc lim (net0 soft) os -> let L := n_log (nrun crc cfg smax conc grp lim soft os) in all_values L ->
  forall c i m, In (OClient c (VDo (EStart item (i, m)))) L -> exists v x, value_of L m v /\ dec (m_pay m) = Some x /\ comes_as v x.
Proof.
  intros crc cfg smax conc grp lim soft os C MD SH E L A c i m S. destruct (A m (C96_genuine crc cfg smax conc grp lim soft os C MD SH E c i m S)) as (v & P). destruct (value_read L m v P) as (x & D & X). exists v, x. auto.
Qed.
Print Assumptions C108_genuine.
(** The answer to every FETCH can be read, record by record, so that no batch is dropped
    because of one of its records (as in C96_poison_refuted). *)
Theorem C108_no_poison : forall crc cfg smax conc grp lim soft os, (forall b, crc b < 2 ^ 32) -> 1 <= max_del cfg -> (forall c, lenN (grp c) < 65536) ->
  envs_ok crc cfg smax grp conc lim (net0 soft) os -> let y := nrun crc cfg smax conc grp lim soft os in let L := n_log y in all_values L ->
  forall a ms, In a (n_down y) -> a_v a = AMsgs ms -> exists xs, sdk_batch ms = Some xs /\ Forall2 (fun m x => fst x = m_seq m /\ exists v, value_of L m v /\ comes_as v (snd x)) ms xs.
Proof.
  intros crc cfg smax conc grp lim soft os C MD SH E y L A a ms I M.
  assert (P : incl ms (published L)) by (exact (ni_down _ _ _ _ _ _ _ (ni crc C cfg smax MD conc grp lim SH soft os E) a ms I M)). clear M I.
  induction ms as [|m ms IH]; [exists []; split; [reflexivity|constructor]|]. destruct IH as (xs & D & R); [intros z Z; apply P; right; exact Z|].
  destruct (A m (P m (or_introl eq_refl))) as (v & PV). destruct (value_read L m v PV) as (x & DX & X). exists ((m_seq m, x) :: xs). cbn [sdk_batch]. rewrite DX, D. split; [reflexivity|]. constructor; [split; [reflexivity|exists v; auto]|exact R].
Qed.
Print Assumptions C108_no_poison.

(** {"n": 7} and the text "hi" are published and handled. *)
Definition va : V := VJson (JObj [([110], JNum [55])]).
Definition vb : V := VStr [104; 105].
Definition append (ts : N) (v : V) : sop := match sdk_append [115] v with Some c => match append_served ts c with Some o => o | None => SPub 0 [] end | None => SPub 0 [] end.
Lemma va_gives : gives va.
Proof.
  assert (NUM : json_number [55]) by (apply (decimal_number 7); apply (d_one 7); lia).
  constructor; [|discriminate]. constructor; [constructor; [split; [repeat constructor|constructor; exact NUM]|constructor]|repeat constructor; intros []].
Qed.
Definition tv0 : list nop := [YOther (append 5 va); YOther (append 6 vb); YSub 0 1; YServe 0 11 1 6 0 []; YTake 0 false; YServe 0 0 0 7 0 []].
Definition tv : list nop := tv0 ++ [YTake 0 false; YClient 0 (CWork (WTake 0 false)); YClient 0 (CWork (WEnd 0 true false)); YServe 0 0 0 8 0 []; YClient 0 (CWork (WTake 0 false)); YClient 0 (CWork (WEnd 0 true false)); YServe 0 0 0 9 0 []].
Notation ma := (mkMsg 1 5 [2; 123; 34; 110; 34; 58; 55; 125]).
Notation mb := (mkMsg 2 6 [1; 104; 105]).
Lemma values_L L : published L = [ma; mb] -> all_values L /\ value_of L ma va /\ value_of L mb vb.
Proof.
  intro P. assert (A : value_of L ma va) by (split; [rewrite P; left; reflexivity|]; exists [115], (TPub [115] (m_pay ma)); split; [exact va_gives|split; vm_compute; reflexivity]).
  assert (B : value_of L mb vb) by (split; [rewrite P; right; left; reflexivity|]; exists [115], (TPub [115] (m_pay mb)); split; [constructor; repeat constructor|split; vm_compute; reflexivity]).
  split; [|auto]. intros m I. rewrite P in I. destruct I as [<-|[<-|[]]]; eauto.
Qed.
Example C108_example : envs_ok crc32 xcfg 60 (fun _ => g1) (fun _ => 1) (fun _ => 10) (net0 1) tv /\ all_values (n_log (nx tv)) /\ value_of (n_log (nx tv)) ma va /\ value_of (n_log (nx tv)) mb vb /\
  snd (sstep crc32 xcfg 60 (n_s (nx tv)) (SJoin g1 13 3)) = RJoin 2 1 /\ handled_as (fun _ => g1) g1 ma va (n_log (nx tv)) /\ handled_as (fun _ => g1) g1 mb vb (n_log (nx tv)) /\
  map (fun a => match a_v a with AMsgs ms => sdk_batch ms | _ => None end) (n_down (nx tv0)) = [Some [(1, va); (2, vb)]].
Proof.
  split; [vm_compute; repeat split; discriminate|]. destruct (values_L (n_log (nx tv)) ltac:(vm_compute; reflexivity)) as (A & B & C). split; [exact A|]. split; [exact B|]. split; [exact C|].
  split; [vm_compute; reflexivity|]. split; [split; [exists 0%nat, (11, 1); split; [reflexivity|split; vm_compute; auto 40]|vm_compute; reflexivity]|].
  split; [split; [exists 0%nat, (11, 1); split; [reflexivity|split; vm_compute; auto 40]|vm_compute; reflexivity]|vm_compute; reflexivity].
Qed.
