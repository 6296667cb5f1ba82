(** What a grammar derives: the specification of the parsers. *)
From Verif Require Import Base LR.

Section Derives.
  Context {tok val : Type}.
  Variable g : grammar tok val.

  (** [derives x w v]: the symbol [x] derives the tokens [w] with value [v]. *)
  Inductive derives : sym -> list (nat * tok * nat) -> located val -> Prop :=
  | d_tok : forall l t r, derives (T (g_term g t)) [(l, t, r)] (l, g_tval g t, r)
  | d_prod : forall p w args, In p (g_prods g) -> derives_list (p_rhs p) w args ->
      derives (NT (p_lhs p)) w (a_start args, p_act p args, a_end args)
  with derives_list : list sym -> list (nat * tok * nat) -> list (located val) -> Prop :=
  | dl_nil : derives_list [] [] []
  | dl_cons : forall x xs w1 w2 v vs, derives x w1 v -> derives_list xs w2 vs ->
      derives_list (x :: xs) (w1 ++ w2) (v :: vs).

  (** A sentence and its value. *)
  Definition sentence (w : list (nat * tok * nat)) (v : val) : Prop :=
    exists l r, derives (NT (g_start g)) w (l, v, r).
End Derives.

Scheme derives_mut := Induction for derives Sort Prop
with derives_list_mut := Induction for derives_list Sort Prop.
Combined Scheme derives_both from derives_mut, derives_list_mut.
