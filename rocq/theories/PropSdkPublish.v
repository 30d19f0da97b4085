(** Property C106: what applications publish is what the handlers of subscribers get. *)
From Coq Require Import String.
From Verif Require Import LibBase LibMap Utf8 WireModel CmdModel RespModel RespProofs ValueModel ValueProofs JsonModel JsonProofs OptionsModel OptionsProofs
  PropValue PropJson PropOptions SdkStoreModel PropSdkStore PubSubModel PubSubSpec PubSubProofs TopicSpec PubSubFacts SdkDispatch SdkSubModel SdkSubSpec SdkPublishModel PropPubSub PropSdkSub.
Open Scope N_scope.

Lemma wire_value k b : lenN k < 2 ^ 32 -> sdk_string (push_wire k b) = Some (k, b).
Proof. intro L. exact (sdk_string_app k b L). Qed.
Lemma published sys t v l rt ttl now c : gives v -> held (JObj l) -> Forall text (names l) -> means sys 33 l (SPublish rt ttl) -> sdk_publish t v (JObj l) = Some c ->
  exists b x, any jv js_stringify v = Some b /\ b <> [] /\ served sys now c = Some (PPub (utf8_write t) b rt (Some ttl) now) /\ decode_any jv js_parse JNull b = Some x /\ PropSdkStore.reads v x /\ (exact v -> x = v).
Proof.
  intros G H T M E. destruct (given_read v G) as (b & x & A & B & C & D). unfold sdk_publish in E. rewrite A in E. injection E as <-. exists b, x. split; auto. split; [destruct b; [discriminate|congruence]|].
  split; [|auto]. cbn [served]. rewrite (means_set sys 33 l _ H T M). reflexivity.
Qed.

(** * C106 *)
(** A value published to a topic goes to each client that has a matching subscription,
    once, and what the SDK there hands to the handlers is the topic and the value. *)
Theorem C106_live : forall ticks imax sys h t v l rt ttl now c, fresh_clients h ->
  gives v -> held (JObj l) -> Forall text (names l) -> means sys 33 l (SPublish rt ttl) -> sdk_publish t v (JObj l) = Some c -> (rt = true -> now + ttl * ticks <= imax) ->
  text t -> lenN (utf8_write t) < 2 ^ 32 ->
  exists o cs p x, served sys now c = Some o /\ answer ticks imax (c_pub_ttl sys) h o = Some (map (fun c => (c, p)) cs) /\ NoDup cs /\
    (forall c, In c cs <-> exists q, holds c q h /\ mqtt q (split (utf8_write t))) /\
    sdk_pushed (push_wire (fst p) (snd p)) = Some (t, x) /\ PropSdkStore.reads v x /\ (exact v -> x = v).
Proof.
  intros ticks imax sys h t v l rt ttl now c F G H T M E FIT TT L. destruct (published sys t v l rt ttl now c G H T M E) as (b & x & A & NE & S & D & R & X).
  destruct (C19_exactly_once_any_pattern ticks imax (c_pub_ttl sys) h (utf8_write t) b rt (Some ttl) now F) as (cs & C1 & C2 & C3); [intros R1 _; cbn [eff_ttl]; auto|].
  exists (PPub (utf8_write t) b rt (Some ttl) now), cs, (utf8_write t, b), x. split; auto. split; auto. split; auto. split; auto. split; [|auto].
  unfold sdk_pushed. cbn [fst snd]. rewrite wire_value by auto. rewrite D, text_back by auto. reflexivity.
Qed.
Print Assumptions C106_live.
(** From the publisher's call to the subscriber's handler: a subscription that was resolved
    and is not being ended (the situation of C88) gets the value, once. *)
Theorem C106_handler_partial : forall ticks imax sys xs p ys cl t v l rt ttl now c, let n := call_no xs in let zs := xs ++ XSub p :: ys in
  all_settled p (slog xs) -> all_served false p (slog xs) ->
  (forall t', In (XUnsub t') ys -> PubSubSpec.reads t' <> PubSubSpec.reads p) -> In (VDone n true) (slog zs) ->
  up_as (slog zs) = Some cl -> all_served true p (slog zs) -> connected cl (b_srv (sst zs)) -> fresh_clients (b_srv (sst zs)) -> matches_cut p (utf8_write t) ->
  gives v -> held (JObj l) -> Forall text (names l) -> means sys 33 l (SPublish rt ttl) -> sdk_publish t v (JObj l) = Some c -> (rt = true -> now + ttl * ticks <= imax) ->
  text t -> lenN (utf8_write t) < 2 ^ 32 ->
  exists o cs b x ns, served sys now c = Some o /\ answer ticks imax (c_pub_ttl sys) (b_srv (sst zs)) o = Some (map (fun c => (c, (utf8_write t, b))) cs) /\ NoDup cs /\ In cl cs /\
    sdk_pushed (push_wire (utf8_write t) b) = Some (t, x) /\ PropSdkStore.reads v x /\ (exact v -> x = v) /\
    slog (zs ++ [XPush (utf8_write t) b]) = slog zs ++ [VHandled (utf8_write t) b ns] /\ exactly_once n ns.
Proof.
  intros ticks imax sys xs p ys cl t v l rt ttl now c n zs H1 H2 H3 H4 Hu Hs Hc Hf Hm G H T M E FIT TT L. destruct (published sys t v l rt ttl now c G H T M E) as (b & x & A & NE & S & D & R & X).
  destruct (C88_delivered_partial ticks imax (c_pub_ttl sys) xs p ys cl (utf8_write t) b rt (Some ttl) now H1 H2 H3 H4 Hu Hs Hc Hf) as (cs & ns & C1 & C2 & C3 & C4 & C5); [intros R1 _; cbn [eff_ttl]; auto|auto|].
  exists (PPub (utf8_write t) b rt (Some ttl) now), cs, b, x, ns. split; auto. split; auto. split; auto. split; auto. split; [|auto].
  unfold sdk_pushed. rewrite wire_value by auto. rewrite D, text_back by auto. reflexivity.
Qed.
Print Assumptions C106_handler_partial.
(** A retained value is what later subscribers get, until its lifetime is over. *)
Theorem C106_retained : forall ticks imax sys h t v l ttl now cmd o h2 c pat now' out, let h' := h ++ o :: h2 in
  gives v -> held (JObj l) -> Forall text (names l) -> means sys 33 l (SPublish true ttl) -> sdk_publish t v (JObj l) = Some cmd -> served sys now cmd = Some o -> now + ttl * ticks <= imax ->
  text t -> lenN (utf8_write t) < 2 ^ 32 ->
  (forall d ttl now, ~ In (PPub (utf8_write t) d true ttl now) h2) -> (forall n, In (PClean n) h2 -> n <= now') ->
  fresh_clients h' -> plain_topics h' -> connected c h' -> matches_cut pat (utf8_write t) -> answer ticks imax (c_pub_ttl sys) h' (PSub c pat now') = Some out ->
  exists x, PropSdkStore.reads v x /\ (exact v -> x = v) /\
    ((now' < now + ttl * ticks -> exists d, In (c, (utf8_write t, d)) out) /\
     (forall d, In (c, (utf8_write t, d)) out -> now' < now + ttl * ticks /\ sdk_pushed (push_wire (utf8_write t) d) = Some (t, x))).
Proof.
  intros ticks imax sys h t v l ttl now cmd o h2 c pat now' out h' G H T M E S FIT TT L N1 N2 F P C Hm Ans. destruct (published sys t v l true ttl now cmd G H T M E) as (b & x & A & NE & S' & D & R & X).
  rewrite S in S'. injection S' as ->. exists x. split; auto. split; auto.
  assert (K : forall y, In (c, (utf8_write t, y)) out <-> y = b /\ now' < now + ttl * ticks).
  { intro y. apply (C22_last_value ticks imax (c_pub_ttl sys) h (utf8_write t) b (Some ttl) now h2 c pat now' out y NE FIT N1 N2 F P C Hm Ans). }
  split; [intro Lt; exists b; apply K; auto|]. intros d I. apply K in I. destruct I as (-> & Lt). split; auto. unfold sdk_pushed. rewrite wire_value by auto. rewrite D, text_back by auto. reflexivity.
Qed.
Print Assumptions C106_retained.
(** The guide says that a retained message is cleared by publishing an empty payload with
    retain: true. No value the SDK can be given has an empty payload; the empty string, an
    empty Buffer, null and undefined are all retained and given to the next subscriber. *)
Theorem C106_clear_refuted : forall ticks imax sys h t v l ttl now cmd o c pat now', let h' := h ++ [o] in
  gives v -> held (JObj l) -> Forall text (names l) -> means sys 33 l (SPublish true ttl) -> sdk_publish t v (JObj l) = Some cmd -> served sys now cmd = Some o -> now + ttl * ticks <= imax ->
  fresh_clients h' -> plain_topics h' -> connected c h' -> matches_cut pat (utf8_write t) -> now' < now + ttl * ticks ->
  exists out d, answer ticks imax (c_pub_ttl sys) h' (PSub c pat now') = Some out /\ In (c, (utf8_write t, d)) out.
Proof.
  intros ticks imax sys h t v l ttl now cmd o c pat now' h' G H T M E S FIT F P C Hm Lt. destruct (published sys t v l true ttl now cmd G H T M E) as (b & x & A & NE & S' & D & R & X).
  rewrite S in S'. injection S' as ->. destruct (C21_retained_on_subscribe ticks imax (c_pub_ttl sys) h' c pat now' F C) as (l0 & _ & Ans & _). eexists. exists b. split; [exact Ans|].
  assert (N1 : forall d ttl now, ~ In (PPub (utf8_write t) d true ttl now) []) by (intros ? ? ? []). assert (N2 : forall n, In (PClean n) [] -> n <= now') by (intros ? []).
  apply (C22_last_value ticks imax (c_pub_ttl sys) h (utf8_write t) b (Some ttl) now [] c pat now' _ b NE FIT N1 N2 F P C Hm Ans). auto.
Qed.
Print Assumptions C106_clear_refuted.

(** {"n": 7} published to "a/b" with {retain: true}; a subscriber of "a/+" whose connection
    was lost twice gets it, and one that comes later; then '' is published to clear it. *)
Definition vp : jv := JObj [([110], JNum [55])].
Definition lp : list (txt * jv) := [(w "retain", JBool true)].
Definition pub (v : value jv) : command := match sdk_publish tab v (JObj lp) with Some c => c | None => CmdModel.PSub [] end.
Definition op (v : value jv) (now : N) : pop := match served sys_default now (pub v) with Some o => o | None => PClean 0 end.
Lemma lp_low : Forall (fun x => x < 65536) (w "retain").
Proof. eapply Forall_impl; [|apply w_low]. cbn. intros. lia. Qed.
Lemma lp_ok : held (JObj lp) /\ Forall text (names lp) /\ means sys_default 33 lp (SPublish true 3600).
Proof.
  split; [constructor; [constructor; [split; [apply lp_low|constructor]|constructor]|repeat constructor; intros []]|]. split; [constructor; [apply text_low, w_low|constructor]|].
  eapply m_publish with (x := JBool true) (a := Some true) (b := None).
  - left; left; reflexivity.
  - constructor.
  - exists JUndef. split; [|constructor]. right. split; auto. intros [E|[]]. vm_compute in E. discriminate E.
  - constructor.
  - constructor.
Qed.
Example C106_example :
  gives (VJson vp) /\ gives (VStr []) /\ sdk_publish tab (VJson vp) (JObj lp) = Some (pub (VJson vp)) /\ text tab /\
  answer 1000 10000000 3600 (b_srv (sst (kx ++ XSub tp :: ky))) (op (VJson vp) 1000) = Some [(3, (tab, [2; 123; 34; 110; 34; 58; 55; 125]))] /\
  sdk_pushed (push_wire tab [2; 123; 34; 110; 34; 58; 55; 125]) = Some (tab, VJson vp) /\ exact (VJson vp) /\
  answer 1000 10000000 3600 (b_srv (sst (kx ++ XSub tp :: ky)) ++ [op (VJson vp) 1000; PConnect 8]) (PSub 8 tp 2000) = Some [(8, (tab, [2; 123; 34; 110; 34; 58; 55; 125]))] /\
  answer 1000 10000000 3600 (b_srv (sst (kx ++ XSub tp :: ky)) ++ [op (VJson vp) 1000; PConnect 8] ++ [op (VStr []) 1500]) (PSub 8 tp 2000) = Some [(8, (tab, [1]))] /\
  sdk_pushed (push_wire tab [1]) = Some (tab, VStr []).
Proof.
  assert (NUM : json_number [55]) by (apply (decimal_number 7); apply (d_one 7); lia).
  split. { constructor; [|discriminate]. constructor; [constructor; [split; [repeat constructor|constructor; exact NUM]|constructor]|repeat constructor; intros []]. }
  split; [constructor; constructor|]. split; [vm_compute; reflexivity|]. split; [apply text_low; repeat constructor|]. split; [vm_compute; reflexivity|]. split; [vm_compute; reflexivity|].
  split; [constructor; repeat constructor|]. split; [vm_compute; reflexivity|]. split; [vm_compute; reflexivity|vm_compute; reflexivity].
Qed.
