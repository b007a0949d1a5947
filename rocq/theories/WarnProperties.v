(** * WarnProperties: C66, warnings and log entries. *)
From Verif Require Import Base WarnModel WarnSpec WarnProofs.
Open Scope string_scope.
Open Scope list_scope.

(** Of the warnings of each kind the first ones up to the limit are printed, in order, then one notice that
    further ones are not, and nothing more (up to 2^32 warnings of that kind). *)
Theorem C66_warnings : forall lim ws k, (0 <= lim)%Z -> (Z.of_nat (length (of_kind k ws)) <= 2 ^ 32)%Z ->
  of_kind k (snd (warn_all ws (fresh lim false))) = seen k (Z.to_nat lim) (of_kind k ws).
Proof. intros lim ws k L T. now apply warn_seen. Qed.
Print Assumptions C66_warnings.

Example C66_example : let ws := [(KEY_WARNING, "a"); (IO_WARNING, "x"); (KEY_WARNING, "b"); (KEY_WARNING, "c"); (KEY_WARNING, "d")] in
  (Z.of_nat (length (of_kind KEY_WARNING ws)) <= 2 ^ 32)%Z /\
  snd (warn_all ws (fresh 2 false)) =
    [(KEY_WARNING, "Key Warning: a"); (IO_WARNING, "I/O Warning: x"); (KEY_WARNING, "Key Warning: b");
     (KEY_WARNING, "Further Key Warnings will be suppressed.")].
Proof. split; [vm_compute; discriminate|vm_compute; reflexivity]. Qed.

(** When warnings are errors, each one is an exception of its kind; nothing is printed or counted. *)
Theorem C66_errors : forall k msg w, as_error w = true -> warn k msg w = (w, [], Throw (error_of k)).
Proof. intros k msg w E. unfold warn. rewrite E. destruct k; reflexivity. Qed.
Print Assumptions C66_errors.

(** After 2^32 warnings of a kind the next one is printed again. *)
Theorem C66_wrap_refuted : forall lim k msg, (0 < lim)%Z -> exists ws,
  Z.of_nat (length (of_kind k ws)) = (2 ^ 32)%Z /\
  of_kind k (snd (warn_all (ws ++ [(k, msg)]) (fresh lim false))) =
  of_kind k (snd (warn_all ws (fresh lim false))) ++ [String.append (prefix k) (String.append ": " msg)].
Proof.
  intros lim k msg L. exists (repeat (k, "") (Z.to_nat (2 ^ 32))).
  assert (E : length (of_kind k (repeat (k, "") (Z.to_nat (2 ^ 32)))) = Z.to_nat (2 ^ 32)).
  { generalize (Z.to_nat (2 ^ 32)). intro n. induction n as [|n IH]; [reflexivity|]. unfold of_kind in *. cbn.
    destruct (kind_eq_dec k k) as [_|N]; [|contradiction]. cbn. now rewrite IH. }
  assert (T : Z.of_nat (length (of_kind k (repeat (k, "") (Z.to_nat (2 ^ 32))))) = (2 ^ 32)%Z).
  { rewrite E. apply Z2Nat.id. apply Z.pow_nonneg. lia. }
  clear E. revert T. generalize (repeat (k, "") (Z.to_nat (2 ^ 32))). intros ws T. split; [exact T|].
  rewrite warn_all_snoc. pose proof (warn_inv lim ws) as V. destruct (warn_all ws (fresh lim false)) as [w out].
  destruct V as (A & B & C). unfold warn. rewrite B, A, C, T. unfold top. rewrite Z.mod_same by discriminate.
  destruct (Z.ltb_spec 0 lim) as [_|N]; [|lia]. cbn [snd fst]. rewrite of_kind_app, of_kind_lines.
  destruct (kind_eq_dec k k) as [_|N]; [reflexivity|contradiction].
Qed.
Print Assumptions C66_wrap_refuted.

(** A log entry is printed exactly when its level is at most the report level last set and its source is not
    switched off. *)
Theorem C66_log : forall h src level, (forall b, ~ In (SetNoMem b) h) ->
  (printed (settings h) src level = true <->
     level <= last_set says_report 0 h /\
     (src = Agent -> last_set says_no_agent false h = false) /\
     (src = Memory -> last_set says_no_mem false h = false))%nat.
Proof.
  intros h src level N. destruct (settings_last h N) as (A & B & C). unfold printed. rewrite A, B, C.
  destruct src; rewrite negb_true_iff, ?orb_false_iff, Nat.ltb_ge; intuition congruence.
Qed.
Print Assumptions C66_log.

Example C66_log_example : let h := [ReportLevel 5; NoAgent true; NoMem true; NoMem false; ReportLevel 3] in
  (forall b, ~ In (SetNoMem b) h) /\ printed (settings h) Core 3 = true /\ printed (settings h) Core 4 = false /\
  printed (settings h) Agent 0 = false /\ printed (settings h) Memory 2 = true.
Proof.
  split; [intros b K; cbn in K; repeat (destruct K as [K|K]; [discriminate|]); exact K|].
  repeat split; vm_compute; reflexivity.
Qed.

(** Each level is known by its name; any other text is the least verbose level. *)
Theorem C66_levels :
  (forall i t, nth_error level_names i = Some t -> to_level t = i) /\
  (forall t, ~ In t level_names -> to_level t = 0%nat).
Proof.
  split.
  - intros i t. do 12 (destruct i as [|i]; [intro E; injection E as <-; vm_compute; reflexivity|]). destruct i; discriminate.
  - intros t N. unfold to_level. assert (E : forall l i, ~ In t l -> position_in t l i = None).
    { induction l as [|x r IH]; intros i K; cbn [position_in]; [reflexivity|]. destruct (String.eqb_spec t x) as [->|D].
      - exfalso. apply K. now left.
      - apply IH. intro H. apply K. now right. }
    now rewrite E.
Qed.
Print Assumptions C66_levels.

(** The function that is to switch off entries about memory switches off those of agents instead. *)
Theorem C66_no_mem_refuted : forall level,
  printed (settings [ReportLevel level; SetNoMem true]) Memory level = true /\
  printed (settings [ReportLevel level; SetNoMem true]) Agent level = false.
Proof.
  intro level. unfold printed, settings. cbn [fold_left set report no_agent no_mem].
  rewrite (proj2 (Nat.ltb_ge level level)) by lia. split; reflexivity.
Qed.
Print Assumptions C66_no_mem_refuted.
