(** C21, C22: option settings. *)
From Verif Require Import Base Config ConfigSpec ConfigProofs.

(** C21: an unknown name, or a known one with a text that is not a value of its type, changes nothing. *)
Theorem C21_invalid_settings_unchanged : forall (name value : str) (c : config),
  (forall o, names name o -> invalid_for o value) -> same_config (set_option name value c) c.
Proof. exact c21_unchanged. Qed.
Print Assumptions C21_invalid_settings_unchanged.

Example C21_invalid_case :
  (forall o, names (s2l "max_width") o -> invalid_for o (s2l "12a"))
  /\ (forall o, names (s2l "max_widht") o -> invalid_for o (s2l "12")).
Proof.
  split; intros o Hn; apply find_names in Hn; vm_compute in Hn; [|discriminate].
  injection Hn as <-. intros n H. apply nat_text_iff in H. vm_compute in H. discriminate.
Qed.

(** C21: a valid value changes exactly the option named. *)
Theorem C21_valid_setting_changes_one : forall (name value : str) (c : config) (o : optname),
  names name o -> ~ invalid_for o value ->
  has_value o value (set_option name value c)
  /\ forall o', o' <> o -> same_at o' (set_option name value c) c.
Proof. exact c21_changed. Qed.
Print Assumptions C21_valid_setting_changes_one.

Example C21_valid_case :
  names (s2l "max_width") (ON N_max_width) /\ ~ invalid_for (ON N_max_width) (s2l "+110")
  /\ nat_text (s2l "+110") 110
  /\ names (s2l "line_range") OLineRange /\ ~ invalid_for OLineRange (s2l "3:14").
Proof.
  repeat apply conj; try (apply find_names; reflexivity); try (apply nat_text_iff; reflexivity).
  - intros H. apply (H 110%N). apply nat_text_iff. reflexivity.
  - intros H. apply (H (3, 14)%N). apply range_text_iff. reflexivity.
Qed.

(** C22: after a sequence of settings each option has the value of its last valid setting, and its old value if
    there is none. *)
Theorem C22_last_setting_wins : forall (l : settings) (c : config) (o : optname),
  (forall v, last_valid o l v -> has_value o v (apply_settings l c))
  /\ (no_valid o l -> same_at o (apply_settings l c) c)
  /\ ((exists v, last_valid o l v) \/ no_valid o l).
Proof. exact c22_last. Qed.
Print Assumptions C22_last_setting_wins.

Example C22_case :
  last_valid (OB B_remove_comments)
    [(s2l "remove_comments", s2l "true"); (s2l "remove_comments", s2l "false");
     (s2l "max_width", s2l "7"); (s2l "remove_comments", s2l "maybe")] (s2l "false").
Proof.
  apply lv_later, lv_here.
  - apply find_names. reflexivity.
  - intros H. apply (H false). reflexivity.
  - constructor; [|constructor; [|constructor]].
    + intros [H _]. apply find_names in H. vm_compute in H. discriminate.
    + intros [_ H]. apply H. intros b Hb. apply bool_text_iff in Hb. vm_compute in Hb. discriminate.
Qed.

(** C22: settings of different options commute. *)
Theorem C22_settings_commute : forall (n1 v1 n2 v2 : str) (c : config), n1 <> n2 ->
  same_config (set_option n1 v1 (set_option n2 v2 c)) (set_option n2 v2 (set_option n1 v1 c)).
Proof. exact set_option_commute. Qed.
Print Assumptions C22_settings_commute.

Example C22_commute_case : s2l "max_width" <> s2l "remove_comments".
Proof. discriminate. Qed.
