(** C20 and C26: bytes of texts and places of path arguments. *)
From Verif Require Import Base State FileUtil Cli BytesSpec BytesProofs.

(** C20: a slice of a text by byte positions is the characters whose bytes they are in UTF-8; it exists only if both positions are
    boundaries of characters, in order. *)
Theorem C20_byte_slices : forall (s : str) (bs : list N) (a b : nat) (u : str), encoding s bs ->
  (bslice s a b = Some u <-> exists p q bp bu bq, s = p ++ u ++ q /\ bs = bp ++ bu ++ bq
     /\ encoding p bp /\ encoding u bu /\ encoding q bq /\ List.length bp = a /\ List.length (bp ++ bu) = b).
Proof. exact byte_slices. Qed.
Print Assumptions C20_byte_slices.

(** C20: every text has an encoding (characters are below 1114112). *)
Theorem C20_encoding_exists : forall (s : str), Forall (fun c => c < 2097152)%N s -> exists bs, encoding s bs.
Proof. exact encoding_some. Qed.
Print Assumptions C20_encoding_exists.

(** The texts are e with an acute accent, the Euro sign and an emoji. *)
Example C20_bytes_case :
  encoding [233; 8364; 128512]%N ([195; 169] ++ [226; 130; 172] ++ [240; 159; 152; 128] ++ [])%N
  /\ bslice [233; 8364; 128512]%N 2 5 = Some [8364]%N /\ bslice [233; 8364; 128512]%N 2 4 = None /\ bslice [233; 8364; 128512]%N 2 10 = None.
Proof.
  split; [|repeat split]. repeat constructor.
  - exact (en_two 3 41 eq_refl eq_refl ltac:(discriminate)).
  - exact (en_three 2 2 44 eq_refl eq_refl eq_refl ltac:(discriminate)).
  - exact (en_four 0 31 24 0 eq_refl eq_refl eq_refl eq_refl ltac:(discriminate)).
Qed.

(** C26: the place that a path argument names. *)
Theorem C26_path_arguments : forall (cwd : path) (a : str) (d : path),
  resolve cwd a = Some d <-> exists p, starts_at cwd a p /\ arrives p a d.
Proof. exact path_meaning. Qed.
Print Assumptions C26_path_arguments.

Example C26_path_case :
  resolve [s2l "home"; s2l "me"] (s2l "../.././../src//a.lua") = Some [s2l "src"; s2l "a.lua"]
  /\ resolve [s2l "home"] (s2l "/x/..") = Some [] /\ resolve [s2l "home"] [] = None.
Proof. repeat split. Qed.
