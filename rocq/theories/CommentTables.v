(** LR(1) tables for the grammar in CommentGrammar.v. They are data computed from the grammar outside Coq and are
    not trusted: CommentParser.v runs them, and the validator of LRProofs.v checks that they decide the
    grammar. [comment_items] lists, per state, the kernel items (production, dot, lookaheads) and the
    lookaheads of the nonterminals expanded there; only the validator reads it. *)
From Verif Require Import Base LR.

Definition comment_rows : list row := [
  mk_row [(0, 1); (1, 2); (2, 3); (3, 4)] [] [(1, 5); (2, 6); (3, 7); (4, 8); (5, 9); (6, 10); (7, 11); (8, 12); (9, 13); (10, 14); (11, 15)];
  mk_row [] [(16, 15)] [];
  mk_row [] [(17, 15)] [];
  mk_row [] [(18, 15)] [];
  mk_row [] [(0, 16)] [];
  mk_row [(3, 16)] [] [];
  mk_row [] [(2, 8)] [];
  mk_row [] [(3, 8)] [];
  mk_row [(0, 1); (1, 2)] [(5, 8)] [(6, 17); (8, 12); (10, 14)];
  mk_row [(2, 3)] [(8, 8)] [(7, 18); (9, 13); (11, 15)];
  mk_row [(2, 3)] [(4, 8)] [(7, 19); (9, 13); (11, 15)];
  mk_row [(0, 1); (1, 2)] [(7, 8)] [(6, 20); (8, 12); (10, 14)];
  mk_row [] [(19, 15)] [];
  mk_row [] [(21, 15)] [];
  mk_row [(0, 1); (1, 2)] [(14, 12)] [(8, 21)];
  mk_row [(2, 3)] [(15, 11)] [(9, 22)];
  mk_row [] [(1, 16)] [];
  mk_row [(2, 3)] [(6, 8)] [(7, 23); (9, 13); (11, 15)];
  mk_row [(0, 1); (1, 2)] [(9, 8)] [(6, 24); (8, 12); (10, 14)];
  mk_row [] [(10, 11)] [];
  mk_row [] [(12, 12)] [];
  mk_row [] [(20, 15)] [];
  mk_row [] [(22, 15)] [];
  mk_row [] [(11, 11)] [];
  mk_row [] [(13, 12)] []
]%N.

Definition comment_items : list (list (N * N * N) * list (N * N)) := [
  ([], [(0, 16); (1, 8); (2, 8); (3, 8); (4, 11); (5, 12); (6, 12); (7, 11); (8, 15); (9, 15); (10, 15); (11, 15)]);
  ([(16, 1, 15)], []);
  ([(17, 1, 15)], []);
  ([(18, 1, 15)], []);
  ([(0, 1, 16)], []);
  ([(1, 1, 16)], []);
  ([(2, 1, 8)], []);
  ([(3, 1, 8)], []);
  ([(5, 1, 8); (6, 1, 8); (11, 1, 11)], [(6, 12); (8, 15); (10, 15)]);
  ([(8, 1, 8); (9, 1, 8); (13, 1, 12)], [(7, 11); (9, 15); (11, 15)]);
  ([(4, 1, 8); (10, 1, 11)], [(7, 11); (9, 15); (11, 15)]);
  ([(7, 1, 8); (12, 1, 12)], [(6, 12); (8, 15); (10, 15)]);
  ([(19, 1, 15)], []);
  ([(21, 1, 15)], []);
  ([(14, 1, 12); (20, 1, 15)], [(8, 15)]);
  ([(15, 1, 11); (22, 1, 15)], [(9, 15)]);
  ([(1, 2, 16)], []);
  ([(6, 2, 8); (11, 2, 11)], [(7, 11); (9, 15); (11, 15)]);
  ([(9, 2, 8); (13, 2, 12)], [(6, 12); (8, 15); (10, 15)]);
  ([(10, 2, 11)], []);
  ([(12, 2, 12)], []);
  ([(20, 2, 15)], []);
  ([(22, 2, 15)], []);
  ([(11, 3, 11)], []);
  ([(13, 3, 12)], [])
]%N.

Definition comment_first : list N := [15; 7; 3; 4; 3; 4; 3; 4; 3; 4; 3; 4]%N.

Definition comment_rank : list nat := [1; 5; 4; 4; 0; 0; 3; 3; 1; 1; 2; 2].
