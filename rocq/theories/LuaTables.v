(** LR(1) tables for the grammar in LuaGrammar.v. They are data computed from the grammar outside Coq and are
    not trusted: LuaParser.v runs them, and the validator of LRProofs.v checks that they decide the
    grammar. [lua_items] lists, per state, the kernel items (production, dot, lookaheads) and the
    lookaheads of the nonterminals expanded there; only the validator reads it. *)
From Verif Require Import Base LR.

Definition lua_rows : list row := [
  mk_row [(23, 1); (26, 2); (27, 3); (36, 4); (37, 5); (42, 6); (43, 7); (44, 8); (45, 9); (47, 10); (49, 11); (50, 12); (54, 13); (55, 14); (60, 15); (61, 16)] [] [(1, 17); (2, 18); (3, 19); (4, 20); (5, 21); (6, 22); (7, 23); (10, 24); (11, 25); (13, 26); (14, 27); (15, 28); (16, 29); (17, 30); (19, 31); (48, 32); (50, 33)];
  mk_row [] [(21, 2370791092556660736)] [];
  mk_row [(55, 14)] [] [(48, 34)];
  mk_row [(1, 35); (2, 36); (8, 37); (13, 38); (27, 39); (31, 40); (35, 41); (41, 42); (43, 43); (48, 44); (52, 45); (55, 14); (56, 46); (57, 47); (58, 48); (59, 49)] [] [(18, 50); (20, 51); (25, 52); (27, 53); (31, 54); (35, 55); (36, 56); (37, 57); (38, 58); (39, 59); (40, 60); (41, 61); (42, 62); (43, 63); (44, 64); (45, 65); (46, 66); (47, 67); (48, 68); (49, 69)];
  mk_row [] [(23, 2370791092556660736)] [];
  mk_row [(23, 1); (26, 2); (27, 3); (36, 4); (37, 5); (40, 70); (42, 6); (43, 7); (44, 8); (45, 9); (47, 10); (49, 11); (50, 12); (54, 13); (55, 14)] [] [(1, 71); (3, 19); (4, 20); (5, 21); (6, 22); (7, 23); (10, 24); (11, 25); (13, 26); (14, 27); (15, 28); (16, 29); (17, 30); (19, 31); (48, 32); (50, 33)];
  mk_row [(55, 14)] [] [(23, 72); (48, 73); (55, 74)];
  mk_row [(55, 14)] [] [(12, 75); (48, 76); (53, 77)];
  mk_row [(55, 14)] [] [(48, 78)];
  mk_row [(1, 35); (2, 36); (8, 37); (13, 38); (27, 39); (31, 40); (35, 41); (41, 42); (43, 43); (48, 44); (52, 45); (55, 14); (56, 46); (57, 47); (58, 48); (59, 49)] [] [(18, 50); (20, 51); (25, 52); (27, 53); (31, 54); (35, 79); (36, 56); (37, 57); (38, 58); (39, 59); (40, 60); (41, 61); (42, 62); (43, 63); (44, 64); (45, 65); (46, 66); (47, 67); (48, 68); (49, 69)];
  mk_row [(43, 80); (55, 14)] [] [(23, 81); (48, 82); (55, 74)];
  mk_row [(23, 1); (26, 2); (27, 3); (36, 4); (37, 5); (42, 6); (43, 7); (44, 8); (45, 9); (47, 10); (49, 11); (50, 12); (53, 83); (54, 13); (55, 14)] [] [(1, 84); (3, 19); (4, 20); (5, 21); (6, 22); (7, 23); (10, 24); (11, 25); (13, 26); (14, 27); (15, 28); (16, 29); (17, 30); (19, 31); (48, 32); (50, 33)];
  mk_row [(1, 35); (2, 36); (8, 37); (13, 38); (23, 85); (27, 39); (31, 40); (35, 41); (41, 42); (43, 43); (48, 44); (52, 45); (55, 14); (56, 46); (57, 47); (58, 48); (59, 49)] [(53, 2314852132613783552)] [(18, 50); (20, 51); (24, 86); (25, 52); (27, 53); (31, 54); (35, 87); (36, 56); (37, 57); (38, 58); (39, 59); (40, 60); (41, 61); (42, 62); (43, 63); (44, 64); (45, 65); (46, 66); (47, 67); (48, 68); (49, 69); (56, 88)];
  mk_row [(1, 35); (2, 36); (8, 37); (13, 38); (27, 39); (31, 40); (35, 41); (41, 42); (43, 43); (48, 44); (52, 45); (55, 14); (56, 46); (57, 47); (58, 48); (59, 49)] [] [(18, 50); (20, 51); (25, 52); (27, 53); (31, 54); (35, 89); (36, 56); (37, 57); (38, 58); (39, 59); (40, 60); (41, 61); (42, 62); (43, 63); (44, 64); (45, 65); (46, 66); (47, 67); (48, 68); (49, 69)];
  mk_row [] [(149, 3381919611795537913)] [];
  mk_row [] [(7, 2361781969156571136)] [];
  mk_row [] [(0, 4611686018427387904)] [];
  mk_row [(61, 90)] [] [];
  mk_row [(23, 1); (26, 2); (27, 3); (36, 4); (37, 5); (42, 6); (43, 7); (44, 8); (45, 9); (47, 10); (49, 11); (50, 12); (54, 13); (55, 14); (61, 91)] [] [(1, 92); (3, 19); (4, 20); (5, 21); (6, 22); (7, 23); (10, 24); (11, 25); (13, 26); (14, 27); (15, 28); (16, 29); (17, 30); (19, 31); (48, 32); (50, 33)];
  mk_row [(50, 12)] [(4, 2314852132613783552)] [(10, 93)];
  mk_row [] [(153, 2370791092422443008)] [];
  mk_row [(23, 1); (26, 2); (36, 4); (37, 5); (42, 6); (43, 7); (44, 8); (45, 9); (47, 10); (49, 11); (54, 13); (55, 14)] [(8, 2315978032520626176)] [(4, 20); (6, 22); (7, 23); (11, 25); (14, 27); (15, 28); (16, 29); (48, 32); (50, 94)];
  mk_row [] [(12, 2370791092422443008)] [];
  mk_row [(27, 3)] [(11, 2370791092422443008)] [(5, 95); (13, 26); (17, 30); (19, 31)];
  mk_row [] [(5, 2314852132613783552)] [];
  mk_row [] [(22, 2370791092556660736)] [];
  mk_row [(33, 96)] [] [];
  mk_row [(33, 97)] [] [];
  mk_row [] [(16, 2370791092422443008)] [];
  mk_row [(24, 98)] [(62, 8589934592)] [];
  mk_row [] [(15, 2370791092422443008)] [];
  mk_row [(24, 99)] [(60, 8589934592)] [];
  mk_row [(25, 100); (27, 101); (29, 102); (31, 40); (34, 103); (57, 47); (58, 48); (59, 49)] [(65, 8606711808)] [(21, 104); (22, 105); (26, 106); (31, 107); (49, 108); (52, 109)];
  mk_row [(23, 1); (26, 2); (36, 4); (37, 5); (42, 6); (43, 7); (44, 8); (45, 9); (47, 10); (49, 11); (54, 13); (55, 14)] [(10, 2315978032520626176)] [(4, 110); (6, 22); (7, 23); (11, 25); (14, 27); (15, 28); (16, 29); (48, 32)];
  mk_row [(26, 111)] [] [];
  mk_row [(1, 35); (2, 36); (8, 37); (13, 38); (27, 39); (31, 40); (35, 41); (41, 42); (43, 43); (48, 44); (52, 45); (55, 14); (56, 46); (57, 47); (58, 48); (59, 49)] [] [(18, 50); (20, 51); (25, 52); (27, 53); (31, 54); (46, 112); (47, 67); (48, 68); (49, 69)];
  mk_row [(27, 39); (31, 40); (35, 41); (41, 42); (43, 43); (48, 44); (52, 45); (55, 14); (56, 46); (57, 47); (58, 48); (59, 49)] [] [(18, 50); (20, 51); (25, 52); (27, 53); (31, 54); (47, 113); (48, 68); (49, 69)];
  mk_row [(27, 39); (31, 40); (35, 41); (41, 42); (43, 43); (48, 44); (52, 45); (55, 14); (56, 46); (57, 47); (58, 48); (59, 49)] [] [(18, 50); (20, 51); (25, 52); (27, 53); (31, 54); (47, 114); (48, 68); (49, 69)];
  mk_row [(27, 39); (31, 40); (35, 41); (41, 42); (43, 43); (48, 44); (52, 45); (55, 14); (56, 46); (57, 47); (58, 48); (59, 49)] [] [(18, 50); (20, 51); (25, 52); (27, 53); (31, 54); (47, 115); (48, 68); (49, 69)];
  mk_row [(1, 35); (2, 36); (8, 37); (13, 38); (27, 39); (31, 40); (35, 41); (41, 42); (43, 43); (48, 44); (52, 45); (55, 14); (56, 46); (57, 47); (58, 48); (59, 49)] [] [(18, 50); (20, 51); (25, 52); (27, 53); (31, 54); (35, 116); (36, 56); (37, 57); (38, 58); (39, 59); (40, 60); (41, 61); (42, 62); (43, 63); (44, 64); (45, 65); (46, 66); (47, 67); (48, 68); (49, 69)];
  mk_row [(1, 35); (2, 36); (8, 37); (13, 38); (27, 39); (29, 117); (31, 40); (32, 118); (35, 41); (41, 42); (43, 43); (48, 44); (52, 45); (55, 14); (56, 46); (57, 47); (58, 48); (59, 49)] [] [(18, 50); (20, 51); (25, 52); (27, 53); (31, 54); (32, 119); (33, 120); (35, 121); (36, 56); (37, 57); (38, 58); (39, 59); (40, 60); (41, 61); (42, 62); (43, 63); (44, 64); (45, 65); (46, 66); (47, 67); (48, 122); (49, 69); (58, 123)];
  mk_row [] [(87, 2373042897898438649)] [];
  mk_row [] [(83, 2373042897898438649)] [];
  mk_row [(27, 124)] [] [(28, 125)];
  mk_row [] [(82, 2373042897898438649)] [];
  mk_row [] [(84, 2373042897898438649)] [];
  mk_row [] [(85, 2373042897898438649)] [];
  mk_row [] [(150, 3381849243051360249)] [];
  mk_row [] [(151, 3381849243051360249)] [];
  mk_row [] [(152, 3381849243051360249)] [];
  mk_row [] [(89, 2373042897898438649)] [];
  mk_row [] [(69, 2373042897898438649)] [];
  mk_row [] [(148, 2373042897898438649)] [];
  mk_row [] [(88, 2373042897898438649)] [];
  mk_row [] [(90, 2373042897898438649)] [];
  mk_row [(28, 126)] [] [];
  mk_row [(22, 127)] [(111, 2373042897890050048)] [];
  mk_row [(21, 128)] [(113, 2373042897894244352)] [];
  mk_row [(15, 129); (16, 130); (17, 131); (18, 132); (19, 133); (20, 134)] [(115, 2373042897896341504)] [];
  mk_row [(14, 135)] [(122, 2373042897898405888)] [];
  mk_row [(13, 136)] [(124, 2373042897898422272)] [];
  mk_row [(12, 137)] [(126, 2373042897898430464)] [];
  mk_row [(10, 138); (11, 139)] [(128, 2373042897898434560)] [];
  mk_row [(9, 140)] [(131, 2373042897898437632)] [];
  mk_row [(7, 141); (8, 142)] [(133, 2373042897898438144)] [];
  mk_row [(3, 143); (4, 144); (5, 145); (6, 146)] [(136, 2373042897898438528)] [];
  mk_row [] [(141, 2373042897898438648)] [];
  mk_row [(0, 147)] [(146, 2373042897898438648)] [];
  mk_row [(25, 100); (27, 101); (29, 102); (31, 40); (34, 103); (57, 47); (58, 48); (59, 49)] [(72, 2373042906488373241)] [(21, 148); (22, 105); (26, 106); (31, 107); (49, 108); (52, 109)];
  mk_row [] [(86, 2373042897898438649)] [];
  mk_row [] [(25, 2370791092556660736)] [];
  mk_row [(40, 149)] [] [];
  mk_row [(46, 150)] [] [];
  mk_row [(24, 151); (33, 152)] [(163, 70368744177664)] [];
  mk_row [] [(80, 2370861469890772992)] [];
  mk_row [(27, 124)] [] [(28, 153)];
  mk_row [(34, 154)] [(159, 167772160)] [];
  mk_row [(25, 155)] [(58, 134217728)] [];
  mk_row [] [(24, 2370791092556660736)] [];
  mk_row [(51, 156)] [] [];
  mk_row [(55, 14)] [] [(48, 157)];
  mk_row [(33, 158)] [(49, 2370791092556660736)] [];
  mk_row [(24, 151)] [(163, 2370861469890772992)] [];
  mk_row [(1, 35); (2, 36); (8, 37); (13, 38); (27, 39); (31, 40); (35, 41); (41, 42); (43, 43); (48, 44); (52, 45); (55, 14); (56, 46); (57, 47); (58, 48); (59, 49)] [] [(18, 50); (20, 51); (25, 52); (27, 53); (31, 54); (35, 159); (36, 56); (37, 57); (38, 58); (39, 59); (40, 60); (41, 61); (42, 62); (43, 63); (44, 64); (45, 65); (46, 66); (47, 67); (48, 68); (49, 69)];
  mk_row [(53, 160)] [] [];
  mk_row [] [(55, 2314852132613783552)] [];
  mk_row [(23, 161)] [(54, 2314852132613783552)] [];
  mk_row [(24, 162)] [(165, 2370791092690878464)] [];
  mk_row [] [(81, 2370791092690878464)] [];
  mk_row [(37, 163)] [] [];
  mk_row [] [(2, 4611686018427387904)] [];
  mk_row [] [(1, 4611686018427387904)] [];
  mk_row [(61, 164)] [] [];
  mk_row [] [(6, 2314852132613783552)] [];
  mk_row [(23, 1); (26, 2); (36, 4); (37, 5); (42, 6); (43, 7); (44, 8); (45, 9); (47, 10); (49, 11); (54, 13); (55, 14)] [(9, 2315978032520626176)] [(4, 110); (6, 22); (7, 23); (11, 25); (14, 27); (15, 28); (16, 29); (48, 32)];
  mk_row [] [(13, 2370791092422443008)] [];
  mk_row [(1, 35); (2, 36); (8, 37); (13, 38); (27, 39); (31, 40); (35, 41); (41, 42); (43, 43); (48, 44); (52, 45); (55, 14); (56, 46); (57, 47); (58, 48); (59, 49)] [] [(18, 50); (20, 51); (24, 165); (25, 52); (27, 53); (31, 54); (35, 87); (36, 56); (37, 57); (38, 58); (39, 59); (40, 60); (41, 61); (42, 62); (43, 63); (44, 64); (45, 65); (46, 66); (47, 67); (48, 68); (49, 69); (56, 88)];
  mk_row [(1, 35); (2, 36); (8, 37); (13, 38); (27, 39); (31, 40); (35, 41); (41, 42); (43, 43); (48, 44); (52, 45); (55, 14); (56, 46); (57, 47); (58, 48); (59, 49)] [] [(18, 50); (20, 51); (24, 166); (25, 52); (27, 53); (31, 54); (35, 87); (36, 56); (37, 57); (38, 58); (39, 59); (40, 60); (41, 61); (42, 62); (43, 63); (44, 64); (45, 65); (46, 66); (47, 67); (48, 68); (49, 69); (56, 88)];
  mk_row [(27, 167); (55, 14)] [] [(20, 168); (48, 68); (54, 169)];
  mk_row [(27, 167); (55, 14)] [] [(20, 168); (48, 68); (54, 170)];
  mk_row [(55, 14)] [] [(48, 171)];
  mk_row [(1, 35); (2, 36); (8, 37); (13, 38); (27, 39); (28, 172); (31, 40); (35, 41); (41, 42); (43, 43); (48, 44); (52, 45); (55, 14); (56, 46); (57, 47); (58, 48); (59, 49)] [] [(18, 50); (20, 51); (24, 173); (25, 52); (27, 53); (31, 54); (35, 87); (36, 56); (37, 57); (38, 58); (39, 59); (40, 60); (41, 61); (42, 62); (43, 63); (44, 64); (45, 65); (46, 66); (47, 67); (48, 68); (49, 69); (56, 88)];
  mk_row [(1, 35); (2, 36); (8, 37); (13, 38); (27, 39); (31, 40); (35, 41); (41, 42); (43, 43); (48, 44); (52, 45); (55, 14); (56, 46); (57, 47); (58, 48); (59, 49)] [] [(18, 50); (20, 51); (25, 52); (27, 53); (31, 54); (35, 174); (36, 56); (37, 57); (38, 58); (39, 59); (40, 60); (41, 61); (42, 62); (43, 63); (44, 64); (45, 65); (46, 66); (47, 67); (48, 68); (49, 69)];
  mk_row [(55, 14)] [] [(48, 175)];
  mk_row [] [(64, 2370791092422443008); (66, 8606711808)] [];
  mk_row [] [(157, 3381849243051360249)] [];
  mk_row [] [(76, 3381849243051360249)] [];
  mk_row [] [(93, 3381849243051360249)] [];
  mk_row [] [(94, 3381849243051360249)] [];
  mk_row [(25, 100); (27, 101); (29, 102); (31, 40); (34, 103); (57, 47); (58, 48); (59, 49)] [(75, 2373042906488373241)] [(22, 176); (26, 106); (31, 107); (49, 108)];
  mk_row [] [(154, 2370791092422443008)] [];
  mk_row [] [(57, 2370791092556660736)] [];
  mk_row [] [(142, 2373042897898438648)] [];
  mk_row [(0, 147)] [(143, 2373042897898438648)] [];
  mk_row [(0, 147)] [(144, 2373042897898438648)] [];
  mk_row [(0, 147)] [(145, 2373042897898438648)] [];
  mk_row [(28, 177)] [] [];
  mk_row [(1, 35); (2, 36); (8, 37); (13, 38); (27, 39); (31, 40); (35, 41); (41, 42); (43, 43); (48, 44); (52, 45); (55, 14); (56, 46); (57, 47); (58, 48); (59, 49)] [] [(18, 50); (20, 51); (25, 52); (27, 53); (31, 54); (35, 178); (36, 56); (37, 57); (38, 58); (39, 59); (40, 60); (41, 61); (42, 62); (43, 63); (44, 64); (45, 65); (46, 66); (47, 67); (48, 68); (49, 69)];
  mk_row [] [(104, 3381849243051360249)] [];
  mk_row [(32, 179)] [] [];
  mk_row [(23, 180); (24, 181)] [(169, 4294967296)] [(34, 182)];
  mk_row [] [(108, 4320133120)] [];
  mk_row [(25, 100); (27, 101); (29, 102); (31, 40); (33, 183); (34, 103); (57, 47); (58, 48); (59, 49)] [(72, 4328521721)] [(21, 148); (22, 105); (26, 106); (31, 107); (49, 108); (52, 109)];
  mk_row [] [(105, 4294967296)] [];
  mk_row [(28, 184); (35, 185); (55, 14)] [] [(29, 186); (30, 187); (48, 188); (57, 189)];
  mk_row [] [(95, 2373042897898438649)] [];
  mk_row [(25, 100); (27, 101); (29, 102); (31, 40); (34, 103); (57, 47); (58, 48); (59, 49)] [(67, 2370791092422443008)] [(21, 190); (22, 105); (26, 106); (31, 107); (49, 108); (52, 109)];
  mk_row [(1, 35); (2, 36); (8, 37); (13, 38); (27, 39); (31, 40); (35, 41); (41, 42); (43, 43); (48, 44); (52, 45); (55, 14); (56, 46); (57, 47); (58, 48); (59, 49)] [] [(18, 50); (20, 51); (25, 52); (27, 53); (31, 54); (37, 191); (38, 58); (39, 59); (40, 60); (41, 61); (42, 62); (43, 63); (44, 64); (45, 65); (46, 66); (47, 67); (48, 68); (49, 69)];
  mk_row [(1, 35); (2, 36); (8, 37); (13, 38); (27, 39); (31, 40); (35, 41); (41, 42); (43, 43); (48, 44); (52, 45); (55, 14); (56, 46); (57, 47); (58, 48); (59, 49)] [] [(18, 50); (20, 51); (25, 52); (27, 53); (31, 54); (38, 192); (39, 59); (40, 60); (41, 61); (42, 62); (43, 63); (44, 64); (45, 65); (46, 66); (47, 67); (48, 68); (49, 69)];
  mk_row [(1, 35); (2, 36); (8, 37); (13, 38); (27, 39); (31, 40); (35, 41); (41, 42); (43, 43); (48, 44); (52, 45); (55, 14); (56, 46); (57, 47); (58, 48); (59, 49)] [] [(18, 50); (20, 51); (25, 52); (27, 53); (31, 54); (39, 193); (40, 60); (41, 61); (42, 62); (43, 63); (44, 64); (45, 65); (46, 66); (47, 67); (48, 68); (49, 69)];
  mk_row [(1, 35); (2, 36); (8, 37); (13, 38); (27, 39); (31, 40); (35, 41); (41, 42); (43, 43); (48, 44); (52, 45); (55, 14); (56, 46); (57, 47); (58, 48); (59, 49)] [] [(18, 50); (20, 51); (25, 52); (27, 53); (31, 54); (39, 194); (40, 60); (41, 61); (42, 62); (43, 63); (44, 64); (45, 65); (46, 66); (47, 67); (48, 68); (49, 69)];
  mk_row [(1, 35); (2, 36); (8, 37); (13, 38); (27, 39); (31, 40); (35, 41); (41, 42); (43, 43); (48, 44); (52, 45); (55, 14); (56, 46); (57, 47); (58, 48); (59, 49)] [] [(18, 50); (20, 51); (25, 52); (27, 53); (31, 54); (39, 195); (40, 60); (41, 61); (42, 62); (43, 63); (44, 64); (45, 65); (46, 66); (47, 67); (48, 68); (49, 69)];
  mk_row [(1, 35); (2, 36); (8, 37); (13, 38); (27, 39); (31, 40); (35, 41); (41, 42); (43, 43); (48, 44); (52, 45); (55, 14); (56, 46); (57, 47); (58, 48); (59, 49)] [] [(18, 50); (20, 51); (25, 52); (27, 53); (31, 54); (39, 196); (40, 60); (41, 61); (42, 62); (43, 63); (44, 64); (45, 65); (46, 66); (47, 67); (48, 68); (49, 69)];
  mk_row [(1, 35); (2, 36); (8, 37); (13, 38); (27, 39); (31, 40); (35, 41); (41, 42); (43, 43); (48, 44); (52, 45); (55, 14); (56, 46); (57, 47); (58, 48); (59, 49)] [] [(18, 50); (20, 51); (25, 52); (27, 53); (31, 54); (39, 197); (40, 60); (41, 61); (42, 62); (43, 63); (44, 64); (45, 65); (46, 66); (47, 67); (48, 68); (49, 69)];
  mk_row [(1, 35); (2, 36); (8, 37); (13, 38); (27, 39); (31, 40); (35, 41); (41, 42); (43, 43); (48, 44); (52, 45); (55, 14); (56, 46); (57, 47); (58, 48); (59, 49)] [] [(18, 50); (20, 51); (25, 52); (27, 53); (31, 54); (39, 198); (40, 60); (41, 61); (42, 62); (43, 63); (44, 64); (45, 65); (46, 66); (47, 67); (48, 68); (49, 69)];
  mk_row [(1, 35); (2, 36); (8, 37); (13, 38); (27, 39); (31, 40); (35, 41); (41, 42); (43, 43); (48, 44); (52, 45); (55, 14); (56, 46); (57, 47); (58, 48); (59, 49)] [] [(18, 50); (20, 51); (25, 52); (27, 53); (31, 54); (40, 199); (41, 61); (42, 62); (43, 63); (44, 64); (45, 65); (46, 66); (47, 67); (48, 68); (49, 69)];
  mk_row [(1, 35); (2, 36); (8, 37); (13, 38); (27, 39); (31, 40); (35, 41); (41, 42); (43, 43); (48, 44); (52, 45); (55, 14); (56, 46); (57, 47); (58, 48); (59, 49)] [] [(18, 50); (20, 51); (25, 52); (27, 53); (31, 54); (41, 200); (42, 62); (43, 63); (44, 64); (45, 65); (46, 66); (47, 67); (48, 68); (49, 69)];
  mk_row [(1, 35); (2, 36); (8, 37); (13, 38); (27, 39); (31, 40); (35, 41); (41, 42); (43, 43); (48, 44); (52, 45); (55, 14); (56, 46); (57, 47); (58, 48); (59, 49)] [] [(18, 50); (20, 51); (25, 52); (27, 53); (31, 54); (42, 201); (43, 63); (44, 64); (45, 65); (46, 66); (47, 67); (48, 68); (49, 69)];
  mk_row [(1, 35); (2, 36); (8, 37); (13, 38); (27, 39); (31, 40); (35, 41); (41, 42); (43, 43); (48, 44); (52, 45); (55, 14); (56, 46); (57, 47); (58, 48); (59, 49)] [] [(18, 50); (20, 51); (25, 52); (27, 53); (31, 54); (43, 202); (44, 64); (45, 65); (46, 66); (47, 67); (48, 68); (49, 69)];
  mk_row [(1, 35); (2, 36); (8, 37); (13, 38); (27, 39); (31, 40); (35, 41); (41, 42); (43, 43); (48, 44); (52, 45); (55, 14); (56, 46); (57, 47); (58, 48); (59, 49)] [] [(18, 50); (20, 51); (25, 52); (27, 53); (31, 54); (43, 203); (44, 64); (45, 65); (46, 66); (47, 67); (48, 68); (49, 69)];
  mk_row [(1, 35); (2, 36); (8, 37); (13, 38); (27, 39); (31, 40); (35, 41); (41, 42); (43, 43); (48, 44); (52, 45); (55, 14); (56, 46); (57, 47); (58, 48); (59, 49)] [] [(18, 50); (20, 51); (25, 52); (27, 53); (31, 54); (44, 204); (45, 65); (46, 66); (47, 67); (48, 68); (49, 69)];
  mk_row [(1, 35); (2, 36); (8, 37); (13, 38); (27, 39); (31, 40); (35, 41); (41, 42); (43, 43); (48, 44); (52, 45); (55, 14); (56, 46); (57, 47); (58, 48); (59, 49)] [] [(18, 50); (20, 51); (25, 52); (27, 53); (31, 54); (45, 205); (46, 66); (47, 67); (48, 68); (49, 69)];
  mk_row [(1, 35); (2, 36); (8, 37); (13, 38); (27, 39); (31, 40); (35, 41); (41, 42); (43, 43); (48, 44); (52, 45); (55, 14); (56, 46); (57, 47); (58, 48); (59, 49)] [] [(18, 50); (20, 51); (25, 52); (27, 53); (31, 54); (45, 206); (46, 66); (47, 67); (48, 68); (49, 69)];
  mk_row [(1, 35); (2, 36); (8, 37); (13, 38); (27, 39); (31, 40); (35, 41); (41, 42); (43, 43); (48, 44); (52, 45); (55, 14); (56, 46); (57, 47); (58, 48); (59, 49)] [] [(18, 50); (20, 51); (25, 52); (27, 53); (31, 54); (46, 207); (47, 67); (48, 68); (49, 69)];
  mk_row [(1, 35); (2, 36); (8, 37); (13, 38); (27, 39); (31, 40); (35, 41); (41, 42); (43, 43); (48, 44); (52, 45); (55, 14); (56, 46); (57, 47); (58, 48); (59, 49)] [] [(18, 50); (20, 51); (25, 52); (27, 53); (31, 54); (46, 208); (47, 67); (48, 68); (49, 69)];
  mk_row [(1, 35); (2, 36); (8, 37); (13, 38); (27, 39); (31, 40); (35, 41); (41, 42); (43, 43); (48, 44); (52, 45); (55, 14); (56, 46); (57, 47); (58, 48); (59, 49)] [] [(18, 50); (20, 51); (25, 52); (27, 53); (31, 54); (46, 209); (47, 67); (48, 68); (49, 69)];
  mk_row [(1, 35); (2, 36); (8, 37); (13, 38); (27, 39); (31, 40); (35, 41); (41, 42); (43, 43); (48, 44); (52, 45); (55, 14); (56, 46); (57, 47); (58, 48); (59, 49)] [] [(18, 50); (20, 51); (25, 52); (27, 53); (31, 54); (46, 210); (47, 67); (48, 68); (49, 69)];
  mk_row [(27, 39); (31, 40); (35, 41); (41, 42); (43, 43); (48, 44); (52, 45); (55, 14); (56, 46); (57, 47); (58, 48); (59, 49)] [] [(18, 50); (20, 51); (25, 211); (27, 53); (31, 54); (48, 68); (49, 69)];
  mk_row [] [(73, 2373042906488373241)] [];
  mk_row [] [(26, 2370791092556660736)] [];
  mk_row [(1, 35); (2, 36); (8, 37); (13, 38); (27, 39); (31, 40); (35, 41); (41, 42); (43, 43); (48, 44); (52, 45); (55, 14); (56, 46); (57, 47); (58, 48); (59, 49)] [] [(18, 50); (20, 51); (24, 212); (25, 52); (27, 53); (31, 54); (35, 87); (36, 56); (37, 57); (38, 58); (39, 59); (40, 60); (41, 61); (42, 62); (43, 63); (44, 64); (45, 65); (46, 66); (47, 67); (48, 68); (49, 69); (56, 88)];
  mk_row [(55, 14)] [] [(48, 82); (55, 213)];
  mk_row [(1, 35); (2, 36); (8, 37); (13, 38); (27, 39); (31, 40); (35, 41); (41, 42); (43, 43); (48, 44); (52, 45); (55, 14); (56, 46); (57, 47); (58, 48); (59, 49)] [] [(18, 50); (20, 51); (25, 52); (27, 53); (31, 54); (35, 214); (36, 56); (37, 57); (38, 58); (39, 59); (40, 60); (41, 61); (42, 62); (43, 63); (44, 64); (45, 65); (46, 66); (47, 67); (48, 68); (49, 69)];
  mk_row [] [(47, 2370791092556660736)] [];
  mk_row [(55, 14)] [] [(48, 76); (53, 215)];
  mk_row [(55, 14)] [] [(48, 216)];
  mk_row [(23, 1); (26, 2); (27, 3); (36, 4); (37, 5); (38, 217); (39, 218); (40, 219); (42, 6); (43, 7); (44, 8); (45, 9); (47, 10); (49, 11); (50, 12); (54, 13); (55, 14)] [] [(1, 220); (3, 19); (4, 20); (5, 21); (6, 22); (7, 23); (8, 221); (9, 222); (10, 24); (11, 25); (13, 26); (14, 27); (15, 28); (16, 29); (17, 30); (19, 31); (48, 32); (50, 33); (51, 223)];
  mk_row [(27, 124)] [] [(28, 224)];
  mk_row [(1, 35); (2, 36); (8, 37); (13, 38); (27, 39); (31, 40); (35, 41); (41, 42); (43, 43); (48, 44); (52, 45); (55, 14); (56, 46); (57, 47); (58, 48); (59, 49)] [] [(18, 50); (20, 51); (24, 225); (25, 52); (27, 53); (31, 54); (35, 87); (36, 56); (37, 57); (38, 58); (39, 59); (40, 60); (41, 61); (42, 62); (43, 63); (44, 64); (45, 65); (46, 66); (47, 67); (48, 68); (49, 69); (56, 88)];
  mk_row [] [(19, 2370791092422443008)] [];
  mk_row [(1, 35); (2, 36); (8, 37); (13, 38); (27, 39); (31, 40); (35, 41); (41, 42); (43, 43); (48, 44); (52, 45); (55, 14); (56, 46); (57, 47); (58, 48); (59, 49)] [] [(18, 50); (20, 51); (25, 52); (27, 53); (31, 54); (35, 226); (36, 56); (37, 57); (38, 58); (39, 59); (40, 60); (41, 61); (42, 62); (43, 63); (44, 64); (45, 65); (46, 66); (47, 67); (48, 68); (49, 69)];
  mk_row [] [(56, 2314852132613783552)] [];
  mk_row [(1, 35); (2, 36); (8, 37); (13, 38); (27, 39); (31, 40); (35, 41); (41, 42); (43, 43); (48, 44); (52, 45); (55, 14); (56, 46); (57, 47); (58, 48); (59, 49)] [] [(18, 50); (20, 51); (25, 52); (27, 53); (31, 54); (35, 87); (36, 56); (37, 57); (38, 58); (39, 59); (40, 60); (41, 61); (42, 62); (43, 63); (44, 64); (45, 65); (46, 66); (47, 67); (48, 68); (49, 69); (56, 227)];
  mk_row [(23, 1); (26, 2); (27, 3); (36, 4); (37, 5); (40, 228); (42, 6); (43, 7); (44, 8); (45, 9); (47, 10); (49, 11); (50, 12); (54, 13); (55, 14)] [] [(1, 229); (3, 19); (4, 20); (5, 21); (6, 22); (7, 23); (10, 24); (11, 25); (13, 26); (14, 27); (15, 28); (16, 29); (17, 30); (19, 31); (48, 32); (50, 33)];
  mk_row [] [(3, 4611686018427387904)] [];
  mk_row [] [(14, 2370791092422443008)] [];
  mk_row [] [(17, 2370791092422443008)] [];
  mk_row [(1, 35); (2, 36); (8, 37); (13, 38); (27, 39); (31, 40); (35, 41); (41, 42); (43, 43); (48, 44); (52, 45); (55, 14); (56, 46); (57, 47); (58, 48); (59, 49)] [] [(18, 50); (20, 51); (25, 52); (27, 53); (31, 54); (35, 230); (36, 56); (37, 57); (38, 58); (39, 59); (40, 60); (41, 61); (42, 62); (43, 63); (44, 64); (45, 65); (46, 66); (47, 67); (48, 68); (49, 69)];
  mk_row [(24, 231)] [(161, 8589934592)] [];
  mk_row [] [(63, 8589934592)] [];
  mk_row [] [(61, 8589934592)] [];
  mk_row [(27, 101); (31, 40); (57, 47); (58, 48); (59, 49)] [] [(26, 232); (31, 107); (49, 108)];
  mk_row [] [(92, 3381849243051360249)] [];
  mk_row [(28, 233)] [] [];
  mk_row [(30, 234)] [] [];
  mk_row [] [(78, 3381849243051360249)] [];
  mk_row [] [(158, 3381849243051360249)] [];
  mk_row [(25, 100); (27, 101); (29, 102); (31, 40); (34, 103); (57, 47); (58, 48); (59, 49)] [(70, 2373042897898438649)] [(21, 235); (22, 105); (26, 106); (31, 107); (49, 108); (52, 109)];
  mk_row [(30, 236)] [] [];
  mk_row [] [(103, 3381849243051360249)] [];
  mk_row [] [(110, 1121688818781528326)] [];
  mk_row [] [(109, 1121688818781528326)] [];
  mk_row [(1, 35); (2, 36); (8, 37); (13, 38); (27, 39); (29, 117); (31, 40); (35, 41); (41, 42); (43, 43); (48, 44); (52, 45); (55, 14); (56, 46); (57, 47); (58, 48); (59, 49)] [(170, 4294967296)] [(18, 50); (20, 51); (25, 52); (27, 53); (31, 54); (33, 120); (35, 121); (36, 56); (37, 57); (38, 58); (39, 59); (40, 60); (41, 61); (42, 62); (43, 63); (44, 64); (45, 65); (46, 66); (47, 67); (48, 122); (49, 69); (58, 237)];
  mk_row [(1, 35); (2, 36); (8, 37); (13, 38); (27, 39); (31, 40); (35, 41); (41, 42); (43, 43); (48, 44); (52, 45); (55, 14); (56, 46); (57, 47); (58, 48); (59, 49)] [] [(18, 50); (20, 51); (25, 52); (27, 53); (31, 54); (35, 238); (36, 56); (37, 57); (38, 58); (39, 59); (40, 60); (41, 61); (42, 62); (43, 63); (44, 64); (45, 65); (46, 66); (47, 67); (48, 68); (49, 69)];
  mk_row [(23, 1); (26, 2); (27, 3); (36, 4); (37, 5); (40, 239); (42, 6); (43, 7); (44, 8); (45, 9); (47, 10); (49, 11); (50, 12); (54, 13); (55, 14)] [] [(1, 240); (3, 19); (4, 20); (5, 21); (6, 22); (7, 23); (10, 24); (11, 25); (13, 26); (14, 27); (15, 28); (16, 29); (17, 30); (19, 31); (48, 32); (50, 33)];
  mk_row [] [(102, 285212672)] [];
  mk_row [(28, 241)] [] [];
  mk_row [(24, 242)] [(167, 268435456)] [];
  mk_row [] [(101, 285212672)] [];
  mk_row [] [(100, 268435456)] [];
  mk_row [] [(68, 2370791092422443008); (71, 8606711808)] [];
  mk_row [(21, 128)] [(112, 2373042897894244352)] [];
  mk_row [(15, 129); (16, 130); (17, 131); (18, 132); (19, 133); (20, 134)] [(114, 2373042897896341504)] [];
  mk_row [(14, 135)] [(116, 2373042897898405888)] [];
  mk_row [(14, 135)] [(117, 2373042897898405888)] [];
  mk_row [(14, 135)] [(118, 2373042897898405888)] [];
  mk_row [(14, 135)] [(119, 2373042897898405888)] [];
  mk_row [(14, 135)] [(120, 2373042897898405888)] [];
  mk_row [(14, 135)] [(121, 2373042897898405888)] [];
  mk_row [(13, 136)] [(123, 2373042897898422272)] [];
  mk_row [(12, 137)] [(125, 2373042897898430464)] [];
  mk_row [(10, 138); (11, 139)] [(127, 2373042897898434560)] [];
  mk_row [(9, 140)] [(129, 2373042897898437632)] [];
  mk_row [(9, 140)] [(130, 2373042897898437632)] [];
  mk_row [(7, 141); (8, 142)] [(132, 2373042897898438144)] [];
  mk_row [(3, 143); (4, 144); (5, 145); (6, 146)] [(134, 2373042897898438528)] [];
  mk_row [(3, 143); (4, 144); (5, 145); (6, 146)] [(135, 2373042897898438528)] [];
  mk_row [] [(137, 2373042897898438648)] [];
  mk_row [] [(138, 2373042897898438648)] [];
  mk_row [] [(139, 2373042897898438648)] [];
  mk_row [] [(140, 2373042897898438648)] [];
  mk_row [] [(147, 2373042897898438649)] [];
  mk_row [(37, 243)] [] [];
  mk_row [] [(164, 2370861469890772992)] [];
  mk_row [(24, 244)] [] [];
  mk_row [] [(160, 167772160)] [];
  mk_row [] [(59, 134217728)] [];
  mk_row [(23, 1); (26, 2); (27, 3); (36, 4); (37, 5); (40, 245); (42, 6); (43, 7); (44, 8); (45, 9); (47, 10); (49, 11); (50, 12); (54, 13); (55, 14)] [] [(1, 246); (3, 19); (4, 20); (5, 21); (6, 22); (7, 23); (10, 24); (11, 25); (13, 26); (14, 27); (15, 28); (16, 29); (17, 30); (19, 31); (48, 32); (50, 33)];
  mk_row [(1, 35); (2, 36); (8, 37); (13, 38); (27, 39); (31, 40); (35, 41); (41, 42); (43, 43); (48, 44); (52, 45); (55, 14); (56, 46); (57, 47); (58, 48); (59, 49)] [] [(18, 50); (20, 51); (25, 52); (27, 53); (31, 54); (35, 247); (36, 56); (37, 57); (38, 58); (39, 59); (40, 60); (41, 61); (42, 62); (43, 63); (44, 64); (45, 65); (46, 66); (47, 67); (48, 68); (49, 69)];
  mk_row [] [(29, 2370791092556660736)] [];
  mk_row [(38, 248); (39, 218); (40, 249)] [] [(8, 250); (9, 222); (51, 223)];
  mk_row [(38, 251); (40, 252)] [] [];
  mk_row [] [(155, 1924145348608)] [];
  mk_row [(39, 218)] [(50, 1374389534720)] [(9, 253)];
  mk_row [] [(48, 2370791092556660736)] [];
  mk_row [] [(20, 2370791092422443008)] [];
  mk_row [] [(18, 2370791092422443008)] [];
  mk_row [] [(166, 2370791092690878464)] [];
  mk_row [] [(27, 2370791092556660736)] [];
  mk_row [(40, 254)] [] [];
  mk_row [(28, 255)] [] [];
  mk_row [(27, 167); (55, 14)] [] [(20, 168); (48, 68); (54, 256)];
  mk_row [] [(79, 3381849243051360249)] [];
  mk_row [] [(91, 3381849243051360249)] [];
  mk_row [] [(77, 3381849243051360249)] [];
  mk_row [] [(74, 2373042906488373241)] [];
  mk_row [(33, 257)] [] [];
  mk_row [] [(171, 4294967296)] [];
  mk_row [] [(107, 4320133120)] [];
  mk_row [] [(96, 2373042898032656377)] [];
  mk_row [(40, 258)] [] [];
  mk_row [(23, 1); (26, 2); (27, 3); (36, 4); (37, 5); (40, 259); (42, 6); (43, 7); (44, 8); (45, 9); (47, 10); (49, 11); (50, 12); (54, 13); (55, 14)] [] [(1, 260); (3, 19); (4, 20); (5, 21); (6, 22); (7, 23); (10, 24); (11, 25); (13, 26); (14, 27); (15, 28); (16, 29); (17, 30); (19, 31); (48, 32); (50, 33)];
  mk_row [(35, 185); (55, 14)] [] [(30, 187); (48, 188); (57, 261)];
  mk_row [(23, 1); (26, 2); (27, 3); (36, 4); (37, 5); (40, 262); (42, 6); (43, 7); (44, 8); (45, 9); (47, 10); (49, 11); (50, 12); (54, 13); (55, 14)] [] [(1, 263); (3, 19); (4, 20); (5, 21); (6, 22); (7, 23); (10, 24); (11, 25); (13, 26); (14, 27); (15, 28); (16, 29); (17, 30); (19, 31); (48, 32); (50, 33)];
  mk_row [(1, 35); (2, 36); (8, 37); (13, 38); (27, 39); (31, 40); (35, 41); (41, 42); (43, 43); (48, 44); (52, 45); (55, 14); (56, 46); (57, 47); (58, 48); (59, 49)] [] [(18, 50); (20, 51); (25, 52); (27, 53); (31, 54); (35, 264); (36, 56); (37, 57); (38, 58); (39, 59); (40, 60); (41, 61); (42, 62); (43, 63); (44, 64); (45, 65); (46, 66); (47, 67); (48, 68); (49, 69)];
  mk_row [] [(31, 2370791092556660736)] [];
  mk_row [(40, 265)] [] [];
  mk_row [(51, 266)] [] [];
  mk_row [(23, 1); (26, 2); (27, 3); (36, 4); (37, 5); (40, 267); (42, 6); (43, 7); (44, 8); (45, 9); (47, 10); (49, 11); (50, 12); (54, 13); (55, 14)] [] [(1, 268); (3, 19); (4, 20); (5, 21); (6, 22); (7, 23); (10, 24); (11, 25); (13, 26); (14, 27); (15, 28); (16, 29); (17, 30); (19, 31); (48, 32); (50, 33)];
  mk_row [] [(30, 2370791092556660736)] [];
  mk_row [(38, 269); (40, 270)] [] [];
  mk_row [(23, 1); (26, 2); (27, 3); (36, 4); (37, 5); (40, 271); (42, 6); (43, 7); (44, 8); (45, 9); (47, 10); (49, 11); (50, 12); (54, 13); (55, 14)] [] [(1, 272); (3, 19); (4, 20); (5, 21); (6, 22); (7, 23); (10, 24); (11, 25); (13, 26); (14, 27); (15, 28); (16, 29); (17, 30); (19, 31); (48, 32); (50, 33)];
  mk_row [] [(35, 2370791092556660736)] [];
  mk_row [] [(156, 1924145348608)] [];
  mk_row [] [(28, 2370791092556660736)] [];
  mk_row [(25, 100); (27, 101); (29, 102); (31, 40); (34, 103); (57, 47); (58, 48); (59, 49)] [] [(21, 235); (22, 105); (26, 106); (31, 107); (49, 108); (52, 109)];
  mk_row [] [(162, 8589934592)] [];
  mk_row [(1, 35); (2, 36); (8, 37); (13, 38); (27, 39); (31, 40); (35, 41); (41, 42); (43, 43); (48, 44); (52, 45); (55, 14); (56, 46); (57, 47); (58, 48); (59, 49)] [] [(18, 50); (20, 51); (25, 52); (27, 53); (31, 54); (35, 273); (36, 56); (37, 57); (38, 58); (39, 59); (40, 60); (41, 61); (42, 62); (43, 63); (44, 64); (45, 65); (46, 66); (47, 67); (48, 68); (49, 69)];
  mk_row [] [(97, 2373042898032656377)] [];
  mk_row [] [(98, 2373042898032656377)] [];
  mk_row [(40, 274)] [] [];
  mk_row [] [(168, 268435456)] [];
  mk_row [] [(45, 2370791092556660736)] [];
  mk_row [(40, 275)] [] [];
  mk_row [(24, 276); (37, 277)] [] [];
  mk_row [] [(33, 2370791092556660736)] [];
  mk_row [(23, 1); (26, 2); (27, 3); (36, 4); (37, 5); (42, 6); (43, 7); (44, 8); (45, 9); (47, 10); (49, 11); (50, 12); (54, 13); (55, 14)] [(51, 1924145348608)] [(1, 278); (3, 19); (4, 20); (5, 21); (6, 22); (7, 23); (10, 24); (11, 25); (13, 26); (14, 27); (15, 28); (16, 29); (17, 30); (19, 31); (48, 32); (50, 33)];
  mk_row [] [(32, 2370791092556660736)] [];
  mk_row [(40, 279)] [] [];
  mk_row [(23, 1); (26, 2); (27, 3); (36, 4); (37, 5); (40, 280); (42, 6); (43, 7); (44, 8); (45, 9); (47, 10); (49, 11); (50, 12); (54, 13); (55, 14)] [] [(1, 281); (3, 19); (4, 20); (5, 21); (6, 22); (7, 23); (10, 24); (11, 25); (13, 26); (14, 27); (15, 28); (16, 29); (17, 30); (19, 31); (48, 32); (50, 33)];
  mk_row [] [(36, 2370791092556660736)] [];
  mk_row [] [(37, 2370791092556660736)] [];
  mk_row [(40, 282)] [] [];
  mk_row [] [(106, 4320133120)] [];
  mk_row [] [(99, 2373042898032656377)] [];
  mk_row [] [(46, 2370791092556660736)] [];
  mk_row [(1, 35); (2, 36); (8, 37); (13, 38); (27, 39); (31, 40); (35, 41); (41, 42); (43, 43); (48, 44); (52, 45); (55, 14); (56, 46); (57, 47); (58, 48); (59, 49)] [] [(18, 50); (20, 51); (25, 52); (27, 53); (31, 54); (35, 283); (36, 56); (37, 57); (38, 58); (39, 59); (40, 60); (41, 61); (42, 62); (43, 63); (44, 64); (45, 65); (46, 66); (47, 67); (48, 68); (49, 69)];
  mk_row [(23, 1); (26, 2); (27, 3); (36, 4); (37, 5); (40, 284); (42, 6); (43, 7); (44, 8); (45, 9); (47, 10); (49, 11); (50, 12); (54, 13); (55, 14)] [] [(1, 285); (3, 19); (4, 20); (5, 21); (6, 22); (7, 23); (10, 24); (11, 25); (13, 26); (14, 27); (15, 28); (16, 29); (17, 30); (19, 31); (48, 32); (50, 33)];
  mk_row [] [(52, 1924145348608)] [];
  mk_row [] [(34, 2370791092556660736)] [];
  mk_row [] [(38, 2370791092556660736)] [];
  mk_row [(40, 286)] [] [];
  mk_row [] [(39, 2370791092556660736)] [];
  mk_row [(37, 287)] [] [];
  mk_row [] [(41, 2370791092556660736)] [];
  mk_row [(40, 288)] [] [];
  mk_row [] [(40, 2370791092556660736)] [];
  mk_row [(23, 1); (26, 2); (27, 3); (36, 4); (37, 5); (40, 289); (42, 6); (43, 7); (44, 8); (45, 9); (47, 10); (49, 11); (50, 12); (54, 13); (55, 14)] [] [(1, 290); (3, 19); (4, 20); (5, 21); (6, 22); (7, 23); (10, 24); (11, 25); (13, 26); (14, 27); (15, 28); (16, 29); (17, 30); (19, 31); (48, 32); (50, 33)];
  mk_row [] [(42, 2370791092556660736)] [];
  mk_row [] [(43, 2370791092556660736)] [];
  mk_row [(40, 291)] [] [];
  mk_row [] [(44, 2370791092556660736)] []
]%N.

Definition lua_items : list (list (N * N * N) * list (N * N)) := [
  ([], [(0, 4611686018427387904); (1, 2305843009213693952); (2, 2361781969156571136); (3, 2306968909120536576); (4, 2361781969022353408); (5, 2361781969022353408); (6, 2361781969022353408); (7, 2361781969156571136); (10, 2305843009213693952); (11, 2361781969156571136); (13, 8589934592); (14, 8589934592); (15, 2361781969022353408); (16, 8606711808); (17, 2361781969022353408); (19, 8606711808); (48, 1008806345169698816); (50, 2361781969022353408)]);
  ([(21, 1, 2370791092556660736)], []);
  ([(57, 1, 2370791092556660736)], [(48, 67108864)]);
  ([(67, 1, 2370791092422443008); (68, 1, 2370791092422443008); (71, 1, 8606711808)], [(18, 276824057); (20, 276824057); (25, 276824057); (27, 276824057); (31, 276824057); (35, 268435456); (36, 272629760); (37, 274726912); (38, 276791296); (39, 276807680); (40, 276815872); (41, 276819968); (42, 276823040); (43, 276823552); (44, 276823936); (45, 276824056); (46, 276824056); (47, 276824057); (48, 1008806336839811065); (49, 276824057)]);
  ([(23, 1, 2370791092556660736)], []);
  ([(25, 1, 2370791092556660736); (26, 1, 2370791092556660736)], [(1, 1099511627776); (3, 1126999418470400); (4, 55940059320287232); (5, 55940059320287232); (6, 55940059320287232); (7, 55940059454504960); (10, 1099511627776); (11, 55940059454504960); (13, 8589934592); (14, 8589934592); (15, 55940059320287232); (16, 8606711808); (17, 55940059320287232); (19, 8606711808); (48, 1008806345169698816); (50, 55940059320287232)]);
  ([(41, 1, 2370791092556660736); (42, 1, 2370791092556660736); (43, 1, 2370791092556660736); (44, 1, 2370791092556660736); (45, 1, 2370791092556660736); (46, 1, 2370791092556660736)], [(23, 70368744177664); (48, 70377350889472); (55, 70368744177664)]);
  ([(47, 1, 2370791092556660736)], [(12, 134217728); (48, 17347641344); (53, 167772160)]);
  ([(24, 1, 2370791092556660736)], [(48, 2370791092556660736)]);
  ([(29, 1, 2370791092556660736); (30, 1, 2370791092556660736); (31, 1, 2370791092556660736); (32, 1, 2370791092556660736); (33, 1, 2370791092556660736); (34, 1, 2370791092556660736); (35, 1, 2370791092556660736); (36, 1, 2370791092556660736); (37, 1, 2370791092556660736); (38, 1, 2370791092556660736); (39, 1, 2370791092556660736); (40, 1, 2370791092556660736)], [(18, 2251799822073849); (20, 2251799822073849); (25, 2251799822073849); (27, 2251799822073849); (31, 2251799822073849); (35, 2251799813685248); (36, 2251799817879552); (37, 2251799819976704); (38, 2251799822041088); (39, 2251799822057472); (40, 2251799822065664); (41, 2251799822069760); (42, 2251799822072832); (43, 2251799822073344); (44, 2251799822073728); (45, 2251799822073848); (46, 2251799822073848); (47, 2251799822073849); (48, 1011058136385060857); (49, 2251799822073849)]);
  ([(20, 1, 2370791092422443008); (48, 1, 2370791092556660736); (49, 1, 2370791092556660736)], [(23, 2370791101146595328); (48, 2370791101163372544); (55, 2370791101146595328)]);
  ([(18, 1, 2370791092422443008); (19, 1, 2370791092422443008)], [(1, 9007199254740992); (3, 10133099161583616); (4, 64946159063400448); (5, 64946159063400448); (6, 64946159063400448); (7, 64946159197618176); (10, 9007199254740992); (11, 64946159197618176); (13, 8589934592); (14, 8589934592); (15, 64946159063400448); (16, 8606711808); (17, 64946159063400448); (19, 8606711808); (48, 1008806345169698816); (50, 64946159063400448)]);
  ([(53, 1, 2314852132613783552); (54, 1, 2314852132613783552); (55, 1, 2314852132613783552); (56, 1, 2314852132613783552)], [(18, 2314852132647337977); (20, 2314852132647337977); (24, 2314852132622172160); (25, 2314852132647337977); (27, 2314852132647337977); (31, 2314852132647337977); (35, 2314852132638949376); (36, 2314852132643143680); (37, 2314852132645240832); (38, 2314852132647305216); (39, 2314852132647321600); (40, 2314852132647329792); (41, 2314852132647333888); (42, 2314852132647336960); (43, 2314852132647337472); (44, 2314852132647337856); (45, 2314852132647337976); (46, 2314852132647337976); (47, 2314852132647337977); (48, 3323658469210324985); (49, 2314852132647337977); (56, 2314852132622172160)]);
  ([(27, 1, 2370791092556660736); (28, 1, 2370791092556660736)], [(18, 137447342073); (20, 137447342073); (25, 137447342073); (27, 137447342073); (31, 137447342073); (35, 137438953472); (36, 137443147776); (37, 137445244928); (38, 137447309312); (39, 137447325696); (40, 137447333888); (41, 137447337984); (42, 137447341056); (43, 137447341568); (44, 137447341952); (45, 137447342072); (46, 137447342072); (47, 137447342073); (48, 1008806474010329081); (49, 137447342073)]);
  ([(149, 1, 3381919611795537913)], []);
  ([(7, 1, 2361781969156571136)], []);
  ([(0, 1, 4611686018427387904)], []);
  ([(2, 1, 4611686018427387904)], []);
  ([(1, 1, 4611686018427387904); (3, 1, 4611686018427387904)], [(1, 2305843009213693952); (3, 2306968909120536576); (4, 2361781969022353408); (5, 2361781969022353408); (6, 2361781969022353408); (7, 2361781969156571136); (10, 2305843009213693952); (11, 2361781969156571136); (13, 8589934592); (14, 8589934592); (15, 2361781969022353408); (16, 8606711808); (17, 2361781969022353408); (19, 8606711808); (48, 1008806345169698816); (50, 2361781969022353408)]);
  ([(4, 1, 2314852132613783552); (6, 1, 2314852132613783552)], [(10, 2314852132613783552)]);
  ([(153, 1, 2370791092422443008)], []);
  ([(8, 1, 2315978032520626176); (9, 1, 2315978032520626176)], [(4, 2370791092422443008); (6, 2370791092422443008); (7, 2370791092556660736); (11, 2370791092556660736); (14, 8589934592); (15, 2370791092422443008); (16, 8606711808); (48, 1008806345169698816); (50, 2370791092422443008)]);
  ([(12, 1, 2370791092422443008)], []);
  ([(11, 1, 2370791092422443008); (13, 1, 2370791092422443008)], [(5, 2370791092422443008); (13, 8589934592); (17, 2370791092422443008); (19, 8606711808)]);
  ([(5, 1, 2314852132613783552)], []);
  ([(22, 1, 2370791092556660736)], []);
  ([(14, 1, 2370791092422443008)], []);
  ([(17, 1, 2370791092422443008)], []);
  ([(16, 1, 2370791092422443008)], []);
  ([(62, 1, 8589934592); (63, 1, 8589934592)], []);
  ([(15, 1, 2370791092422443008)], []);
  ([(60, 1, 8589934592); (61, 1, 8589934592)], []);
  ([(64, 1, 2370791092422443008); (65, 1, 8606711808); (66, 1, 8606711808)], [(21, 2370791101029154816); (22, 3379597437592141824); (26, 3379597437592141824); (31, 3379597437592141824); (49, 3379597437592141824); (52, 3379597437592141824)]);
  ([(10, 1, 2315978032520626176); (154, 1, 2370791092422443008)], [(4, 2370791092422443008); (6, 2370791092422443008); (7, 2370791092556660736); (11, 2370791092556660736); (14, 8589934592); (15, 2370791092422443008); (16, 8606711808); (48, 1008806345169698816)]);
  ([(57, 2, 2370791092556660736)], []);
  ([(142, 1, 2373042897898438648)], [(18, 2373042897898438649); (20, 2373042897898438649); (25, 2373042897898438649); (27, 2373042897898438649); (31, 2373042897898438649); (46, 2373042897898438648); (47, 2373042897898438649); (48, 3381849234461425657); (49, 2373042897898438649)]);
  ([(143, 1, 2373042897898438648)], [(18, 2373042897898438649); (20, 2373042897898438649); (25, 2373042897898438649); (27, 2373042897898438649); (31, 2373042897898438649); (47, 2373042897898438649); (48, 3381849234461425657); (49, 2373042897898438649)]);
  ([(144, 1, 2373042897898438648)], [(18, 2373042897898438649); (20, 2373042897898438649); (25, 2373042897898438649); (27, 2373042897898438649); (31, 2373042897898438649); (47, 2373042897898438649); (48, 3381849234461425657); (49, 2373042897898438649)]);
  ([(145, 1, 2373042897898438648)], [(18, 2373042897898438649); (20, 2373042897898438649); (25, 2373042897898438649); (27, 2373042897898438649); (31, 2373042897898438649); (47, 2373042897898438649); (48, 3381849234461425657); (49, 2373042897898438649)]);
  ([(70, 1, 2373042897898438649); (74, 1, 2373042897898438649)], [(18, 276824057); (20, 276824057); (25, 276824057); (27, 276824057); (31, 276824057); (35, 268435456); (36, 272629760); (37, 274726912); (38, 276791296); (39, 276807680); (40, 276815872); (41, 276819968); (42, 276823040); (43, 276823552); (44, 276823936); (45, 276824056); (46, 276824056); (47, 276824057); (48, 1008806336839811065); (49, 276824057)]);
  ([(103, 1, 3381849243051360249); (104, 1, 3381849243051360249)], [(18, 4328521721); (20, 4328521721); (25, 4328521721); (27, 4328521721); (31, 4328521721); (32, 4294967296); (33, 4320133120); (35, 4320133120); (36, 4324327424); (37, 4326424576); (38, 4328488960); (39, 4328505344); (40, 4328513536); (41, 4328517632); (42, 4328520704); (43, 4328521216); (44, 4328521600); (45, 4328521720); (46, 4328521720); (47, 4328521721); (48, 1008806349481443321); (49, 4328521721); (58, 4294967296)]);
  ([(87, 1, 2373042897898438649)], []);
  ([(83, 1, 2373042897898438649)], []);
  ([(95, 1, 2373042897898438649)], [(28, 2373042897898438649)]);
  ([(82, 1, 2373042897898438649)], []);
  ([(84, 1, 2373042897898438649)], []);
  ([(85, 1, 2373042897898438649)], []);
  ([(150, 1, 3381849243051360249)], []);
  ([(151, 1, 3381849243051360249)], []);
  ([(152, 1, 3381849243051360249)], []);
  ([(89, 1, 2373042897898438649)], []);
  ([(69, 1, 2373042897898438649)], []);
  ([(148, 1, 2373042897898438649)], []);
  ([(88, 1, 2373042897898438649)], []);
  ([(90, 1, 2373042897898438649)], []);
  ([(67, 2, 2370791092422443008); (68, 2, 2370791092422443008); (71, 2, 8606711808)], []);
  ([(111, 1, 2373042897890050048); (112, 1, 2373042897894244352)], []);
  ([(113, 1, 2373042897894244352); (114, 1, 2373042897896341504)], []);
  ([(115, 1, 2373042897896341504); (116, 1, 2373042897898405888); (117, 1, 2373042897898405888); (118, 1, 2373042897898405888); (119, 1, 2373042897898405888); (120, 1, 2373042897898405888); (121, 1, 2373042897898405888)], []);
  ([(122, 1, 2373042897898405888); (123, 1, 2373042897898422272)], []);
  ([(124, 1, 2373042897898422272); (125, 1, 2373042897898430464)], []);
  ([(126, 1, 2373042897898430464); (127, 1, 2373042897898434560)], []);
  ([(128, 1, 2373042897898434560); (129, 1, 2373042897898437632); (130, 1, 2373042897898437632)], []);
  ([(131, 1, 2373042897898437632); (132, 1, 2373042897898438144)], []);
  ([(133, 1, 2373042897898438144); (134, 1, 2373042897898438528); (135, 1, 2373042897898438528)], []);
  ([(136, 1, 2373042897898438528); (137, 1, 2373042897898438648); (138, 1, 2373042897898438648); (139, 1, 2373042897898438648); (140, 1, 2373042897898438648)], []);
  ([(141, 1, 2373042897898438648)], []);
  ([(146, 1, 2373042897898438648); (147, 1, 2373042897898438649)], []);
  ([(72, 1, 2373042906488373241); (73, 1, 2373042906488373241)], [(21, 2373042906488373241); (22, 3381849243051360249); (26, 3381849243051360249); (31, 3381849243051360249); (49, 3381849243051360249); (52, 3381849243051360249)]);
  ([(86, 1, 2373042897898438649)], []);
  ([(25, 2, 2370791092556660736)], []);
  ([(26, 2, 2370791092556660736)], []);
  ([(45, 2, 2370791092556660736); (46, 2, 2370791092556660736)], []);
  ([(41, 2, 2370791092556660736); (42, 2, 2370791092556660736); (43, 2, 2370791092556660736); (44, 2, 2370791092556660736); (163, 1, 70368744177664); (164, 1, 70368744177664)], []);
  ([(80, 1, 2370861469890772992)], []);
  ([(47, 2, 2370791092556660736)], [(28, 2370791092556660736)]);
  ([(159, 1, 167772160); (160, 1, 167772160)], []);
  ([(58, 1, 134217728); (59, 1, 134217728)], []);
  ([(24, 2, 2370791092556660736)], []);
  ([(29, 2, 2370791092556660736); (30, 2, 2370791092556660736); (31, 2, 2370791092556660736); (32, 2, 2370791092556660736); (33, 2, 2370791092556660736); (34, 2, 2370791092556660736); (35, 2, 2370791092556660736); (36, 2, 2370791092556660736); (37, 2, 2370791092556660736); (38, 2, 2370791092556660736); (39, 2, 2370791092556660736); (40, 2, 2370791092556660736)], []);
  ([(48, 2, 2370791092556660736)], [(48, 134217728)]);
  ([(20, 2, 2370791092422443008); (49, 2, 2370791092556660736)], []);
  ([(163, 1, 2370861469890772992); (164, 1, 2370861469890772992)], []);
  ([(19, 2, 2370791092422443008)], [(18, 2370791092430831609); (20, 2370791092430831609); (25, 2370791092430831609); (27, 2370791092430831609); (31, 2370791092430831609); (35, 2370791092422443008); (36, 2370791092426637312); (37, 2370791092428734464); (38, 2370791092430798848); (39, 2370791092430815232); (40, 2370791092430823424); (41, 2370791092430827520); (42, 2370791092430830592); (43, 2370791092430831104); (44, 2370791092430831488); (45, 2370791092430831608); (46, 2370791092430831608); (47, 2370791092430831609); (48, 3379597428993818617); (49, 2370791092430831609)]);
  ([(18, 2, 2370791092422443008)], []);
  ([(55, 2, 2314852132613783552)], []);
  ([(54, 2, 2314852132613783552); (56, 2, 2314852132613783552)], []);
  ([(165, 1, 2370791092690878464); (166, 1, 2370791092690878464)], []);
  ([(81, 1, 2370791092690878464)], []);
  ([(27, 2, 2370791092556660736); (28, 2, 2370791092556660736)], []);
  ([(2, 2, 4611686018427387904)], []);
  ([(1, 2, 4611686018427387904)], []);
  ([(3, 2, 4611686018427387904)], []);
  ([(6, 2, 2314852132613783552)], []);
  ([(9, 2, 2315978032520626176); (154, 1, 2370791092422443008)], [(4, 2370791092422443008); (6, 2370791092422443008); (7, 2370791092556660736); (11, 2370791092556660736); (14, 8589934592); (15, 2370791092422443008); (16, 8606711808); (48, 1008806345169698816)]);
  ([(13, 2, 2370791092422443008)], []);
  ([(14, 2, 2370791092422443008)], [(18, 2370791092447608825); (20, 2370791092447608825); (24, 2370791092422443008); (25, 2370791092447608825); (27, 2370791092447608825); (31, 2370791092447608825); (35, 2370791092439220224); (36, 2370791092443414528); (37, 2370791092445511680); (38, 2370791092447576064); (39, 2370791092447592448); (40, 2370791092447600640); (41, 2370791092447604736); (42, 2370791092447607808); (43, 2370791092447608320); (44, 2370791092447608704); (45, 2370791092447608824); (46, 2370791092447608824); (47, 2370791092447608825); (48, 3379597429010595833); (49, 2370791092447608825); (56, 2370791092422443008)]);
  ([(17, 2, 2370791092422443008)], [(18, 2370791092447608825); (20, 2370791092447608825); (24, 2370791092422443008); (25, 2370791092447608825); (27, 2370791092447608825); (31, 2370791092447608825); (35, 2370791092439220224); (36, 2370791092443414528); (37, 2370791092445511680); (38, 2370791092447576064); (39, 2370791092447592448); (40, 2370791092447600640); (41, 2370791092447604736); (42, 2370791092447607808); (43, 2370791092447608320); (44, 2370791092447608704); (45, 2370791092447608824); (46, 2370791092447608824); (47, 2370791092447608825); (48, 3379597429010595833); (49, 2370791092447608825); (56, 2370791092422443008)]);
  ([(63, 2, 8589934592)], [(20, 8606711808); (48, 1008806345169698816); (54, 8589934592)]);
  ([(61, 2, 8589934592)], [(20, 8606711808); (48, 1008806345169698816); (54, 8589934592)]);
  ([(79, 1, 3381849243051360249)], [(48, 1008806318812692480)]);
  ([(91, 1, 3381849243051360249); (92, 1, 3381849243051360249)], [(18, 293601273); (20, 293601273); (24, 268435456); (25, 293601273); (27, 293601273); (31, 293601273); (35, 285212672); (36, 289406976); (37, 291504128); (38, 293568512); (39, 293584896); (40, 293593088); (41, 293597184); (42, 293600256); (43, 293600768); (44, 293601152); (45, 293601272); (46, 293601272); (47, 293601273); (48, 1008806336856588281); (49, 293601273); (56, 268435456)]);
  ([(77, 1, 3381849243051360249)], [(18, 1082130425); (20, 1082130425); (25, 1082130425); (27, 1082130425); (31, 1082130425); (35, 1073741824); (36, 1077936128); (37, 1080033280); (38, 1082097664); (39, 1082114048); (40, 1082122240); (41, 1082126336); (42, 1082129408); (43, 1082129920); (44, 1082130304); (45, 1082130424); (46, 1082130424); (47, 1082130425); (48, 1008806337645117433); (49, 1082130425)]);
  ([(78, 1, 3381849243051360249)], [(48, 3381849243051360249)]);
  ([(64, 2, 2370791092422443008); (66, 2, 8606711808)], []);
  ([(157, 1, 3381849243051360249)], []);
  ([(76, 1, 3381849243051360249)], []);
  ([(93, 1, 3381849243051360249)], []);
  ([(94, 1, 3381849243051360249)], []);
  ([(75, 1, 2373042906488373241); (158, 1, 3381849243051360249)], [(22, 3381849243051360249); (26, 3381849243051360249); (31, 3381849243051360249); (49, 3381849243051360249)]);
  ([(154, 2, 2370791092422443008)], []);
  ([(57, 3, 2370791092556660736)], []);
  ([(142, 2, 2373042897898438648)], []);
  ([(143, 2, 2373042897898438648); (147, 1, 2373042897898438649)], []);
  ([(144, 2, 2373042897898438648); (147, 1, 2373042897898438649)], []);
  ([(145, 2, 2373042897898438648); (147, 1, 2373042897898438649)], []);
  ([(70, 2, 2373042897898438649); (74, 2, 2373042897898438649)], []);
  ([(106, 1, 4320133120)], [(18, 1082130425); (20, 1082130425); (25, 1082130425); (27, 1082130425); (31, 1082130425); (35, 1073741824); (36, 1077936128); (37, 1080033280); (38, 1082097664); (39, 1082114048); (40, 1082122240); (41, 1082126336); (42, 1082129408); (43, 1082129920); (44, 1082130304); (45, 1082130424); (46, 1082130424); (47, 1082130425); (48, 1008806337645117433); (49, 1082130425)]);
  ([(104, 2, 3381849243051360249)], []);
  ([(103, 2, 3381849243051360249)], []);
  ([(169, 1, 4294967296); (170, 1, 4294967296); (171, 1, 4294967296)], [(34, 1121688818781528326)]);
  ([(108, 1, 4320133120)], []);
  ([(72, 1, 4328521721); (73, 1, 4328521721); (107, 1, 4320133120)], [(21, 4328521721); (22, 1008806340891508729); (26, 1008806340891508729); (31, 1008806340891508729); (49, 1008806340891508729); (52, 1008806340891508729)]);
  ([(105, 1, 4294967296)], []);
  ([(96, 1, 2373042898032656377); (97, 1, 2373042898032656377); (98, 1, 2373042898032656377); (99, 1, 2373042898032656377)], [(29, 268435456); (30, 285212672); (48, 285212672); (57, 268435456)]);
  ([(95, 2, 2373042897898438649)], []);
  ([(67, 3, 2370791092422443008); (68, 3, 2370791092422443008); (71, 3, 8606711808)], [(21, 2370791101029154816); (22, 3379597437592141824); (26, 3379597437592141824); (31, 3379597437592141824); (49, 3379597437592141824); (52, 3379597437592141824)]);
  ([(112, 2, 2373042897894244352)], [(18, 2373042897898438649); (20, 2373042897898438649); (25, 2373042897898438649); (27, 2373042897898438649); (31, 2373042897898438649); (37, 2373042897896341504); (38, 2373042897898405888); (39, 2373042897898422272); (40, 2373042897898430464); (41, 2373042897898434560); (42, 2373042897898437632); (43, 2373042897898438144); (44, 2373042897898438528); (45, 2373042897898438648); (46, 2373042897898438648); (47, 2373042897898438649); (48, 3381849234461425657); (49, 2373042897898438649)]);
  ([(114, 2, 2373042897896341504)], [(18, 2373042897898438649); (20, 2373042897898438649); (25, 2373042897898438649); (27, 2373042897898438649); (31, 2373042897898438649); (38, 2373042897898405888); (39, 2373042897898422272); (40, 2373042897898430464); (41, 2373042897898434560); (42, 2373042897898437632); (43, 2373042897898438144); (44, 2373042897898438528); (45, 2373042897898438648); (46, 2373042897898438648); (47, 2373042897898438649); (48, 3381849234461425657); (49, 2373042897898438649)]);
  ([(116, 2, 2373042897898405888)], [(18, 2373042897898438649); (20, 2373042897898438649); (25, 2373042897898438649); (27, 2373042897898438649); (31, 2373042897898438649); (39, 2373042897898422272); (40, 2373042897898430464); (41, 2373042897898434560); (42, 2373042897898437632); (43, 2373042897898438144); (44, 2373042897898438528); (45, 2373042897898438648); (46, 2373042897898438648); (47, 2373042897898438649); (48, 3381849234461425657); (49, 2373042897898438649)]);
  ([(117, 2, 2373042897898405888)], [(18, 2373042897898438649); (20, 2373042897898438649); (25, 2373042897898438649); (27, 2373042897898438649); (31, 2373042897898438649); (39, 2373042897898422272); (40, 2373042897898430464); (41, 2373042897898434560); (42, 2373042897898437632); (43, 2373042897898438144); (44, 2373042897898438528); (45, 2373042897898438648); (46, 2373042897898438648); (47, 2373042897898438649); (48, 3381849234461425657); (49, 2373042897898438649)]);
  ([(118, 2, 2373042897898405888)], [(18, 2373042897898438649); (20, 2373042897898438649); (25, 2373042897898438649); (27, 2373042897898438649); (31, 2373042897898438649); (39, 2373042897898422272); (40, 2373042897898430464); (41, 2373042897898434560); (42, 2373042897898437632); (43, 2373042897898438144); (44, 2373042897898438528); (45, 2373042897898438648); (46, 2373042897898438648); (47, 2373042897898438649); (48, 3381849234461425657); (49, 2373042897898438649)]);
  ([(119, 2, 2373042897898405888)], [(18, 2373042897898438649); (20, 2373042897898438649); (25, 2373042897898438649); (27, 2373042897898438649); (31, 2373042897898438649); (39, 2373042897898422272); (40, 2373042897898430464); (41, 2373042897898434560); (42, 2373042897898437632); (43, 2373042897898438144); (44, 2373042897898438528); (45, 2373042897898438648); (46, 2373042897898438648); (47, 2373042897898438649); (48, 3381849234461425657); (49, 2373042897898438649)]);
  ([(120, 2, 2373042897898405888)], [(18, 2373042897898438649); (20, 2373042897898438649); (25, 2373042897898438649); (27, 2373042897898438649); (31, 2373042897898438649); (39, 2373042897898422272); (40, 2373042897898430464); (41, 2373042897898434560); (42, 2373042897898437632); (43, 2373042897898438144); (44, 2373042897898438528); (45, 2373042897898438648); (46, 2373042897898438648); (47, 2373042897898438649); (48, 3381849234461425657); (49, 2373042897898438649)]);
  ([(121, 2, 2373042897898405888)], [(18, 2373042897898438649); (20, 2373042897898438649); (25, 2373042897898438649); (27, 2373042897898438649); (31, 2373042897898438649); (39, 2373042897898422272); (40, 2373042897898430464); (41, 2373042897898434560); (42, 2373042897898437632); (43, 2373042897898438144); (44, 2373042897898438528); (45, 2373042897898438648); (46, 2373042897898438648); (47, 2373042897898438649); (48, 3381849234461425657); (49, 2373042897898438649)]);
  ([(123, 2, 2373042897898422272)], [(18, 2373042897898438649); (20, 2373042897898438649); (25, 2373042897898438649); (27, 2373042897898438649); (31, 2373042897898438649); (40, 2373042897898430464); (41, 2373042897898434560); (42, 2373042897898437632); (43, 2373042897898438144); (44, 2373042897898438528); (45, 2373042897898438648); (46, 2373042897898438648); (47, 2373042897898438649); (48, 3381849234461425657); (49, 2373042897898438649)]);
  ([(125, 2, 2373042897898430464)], [(18, 2373042897898438649); (20, 2373042897898438649); (25, 2373042897898438649); (27, 2373042897898438649); (31, 2373042897898438649); (41, 2373042897898434560); (42, 2373042897898437632); (43, 2373042897898438144); (44, 2373042897898438528); (45, 2373042897898438648); (46, 2373042897898438648); (47, 2373042897898438649); (48, 3381849234461425657); (49, 2373042897898438649)]);
  ([(127, 2, 2373042897898434560)], [(18, 2373042897898438649); (20, 2373042897898438649); (25, 2373042897898438649); (27, 2373042897898438649); (31, 2373042897898438649); (42, 2373042897898437632); (43, 2373042897898438144); (44, 2373042897898438528); (45, 2373042897898438648); (46, 2373042897898438648); (47, 2373042897898438649); (48, 3381849234461425657); (49, 2373042897898438649)]);
  ([(129, 2, 2373042897898437632)], [(18, 2373042897898438649); (20, 2373042897898438649); (25, 2373042897898438649); (27, 2373042897898438649); (31, 2373042897898438649); (43, 2373042897898438144); (44, 2373042897898438528); (45, 2373042897898438648); (46, 2373042897898438648); (47, 2373042897898438649); (48, 3381849234461425657); (49, 2373042897898438649)]);
  ([(130, 2, 2373042897898437632)], [(18, 2373042897898438649); (20, 2373042897898438649); (25, 2373042897898438649); (27, 2373042897898438649); (31, 2373042897898438649); (43, 2373042897898438144); (44, 2373042897898438528); (45, 2373042897898438648); (46, 2373042897898438648); (47, 2373042897898438649); (48, 3381849234461425657); (49, 2373042897898438649)]);
  ([(132, 2, 2373042897898438144)], [(18, 2373042897898438649); (20, 2373042897898438649); (25, 2373042897898438649); (27, 2373042897898438649); (31, 2373042897898438649); (44, 2373042897898438528); (45, 2373042897898438648); (46, 2373042897898438648); (47, 2373042897898438649); (48, 3381849234461425657); (49, 2373042897898438649)]);
  ([(134, 2, 2373042897898438528)], [(18, 2373042897898438649); (20, 2373042897898438649); (25, 2373042897898438649); (27, 2373042897898438649); (31, 2373042897898438649); (45, 2373042897898438648); (46, 2373042897898438648); (47, 2373042897898438649); (48, 3381849234461425657); (49, 2373042897898438649)]);
  ([(135, 2, 2373042897898438528)], [(18, 2373042897898438649); (20, 2373042897898438649); (25, 2373042897898438649); (27, 2373042897898438649); (31, 2373042897898438649); (45, 2373042897898438648); (46, 2373042897898438648); (47, 2373042897898438649); (48, 3381849234461425657); (49, 2373042897898438649)]);
  ([(137, 2, 2373042897898438648)], [(18, 2373042897898438649); (20, 2373042897898438649); (25, 2373042897898438649); (27, 2373042897898438649); (31, 2373042897898438649); (46, 2373042897898438648); (47, 2373042897898438649); (48, 3381849234461425657); (49, 2373042897898438649)]);
  ([(138, 2, 2373042897898438648)], [(18, 2373042897898438649); (20, 2373042897898438649); (25, 2373042897898438649); (27, 2373042897898438649); (31, 2373042897898438649); (46, 2373042897898438648); (47, 2373042897898438649); (48, 3381849234461425657); (49, 2373042897898438649)]);
  ([(139, 2, 2373042897898438648)], [(18, 2373042897898438649); (20, 2373042897898438649); (25, 2373042897898438649); (27, 2373042897898438649); (31, 2373042897898438649); (46, 2373042897898438648); (47, 2373042897898438649); (48, 3381849234461425657); (49, 2373042897898438649)]);
  ([(140, 2, 2373042897898438648)], [(18, 2373042897898438649); (20, 2373042897898438649); (25, 2373042897898438649); (27, 2373042897898438649); (31, 2373042897898438649); (46, 2373042897898438648); (47, 2373042897898438649); (48, 3381849234461425657); (49, 2373042897898438649)]);
  ([(147, 2, 2373042897898438649)], [(18, 2373042897898438649); (20, 2373042897898438649); (25, 2373042897898438649); (27, 2373042897898438649); (31, 2373042897898438649); (48, 3381849234461425657); (49, 2373042897898438649)]);
  ([(73, 2, 2373042906488373241)], []);
  ([(26, 3, 2370791092556660736)], []);
  ([(45, 3, 2370791092556660736); (46, 3, 2370791092556660736)], [(18, 137464119289); (20, 137464119289); (24, 137438953472); (25, 137464119289); (27, 137464119289); (31, 137464119289); (35, 137455730688); (36, 137459924992); (37, 137462022144); (38, 137464086528); (39, 137464102912); (40, 137464111104); (41, 137464115200); (42, 137464118272); (43, 137464118784); (44, 137464119168); (45, 137464119288); (46, 137464119288); (47, 137464119289); (48, 1008806474027106297); (49, 137464119289); (56, 137438953472)]);
  ([(164, 2, 2370861469890772992)], [(48, 2370861469907550208); (55, 2370861469890772992)]);
  ([(41, 3, 2370791092556660736); (42, 3, 2370791092556660736); (43, 3, 2370791092556660736); (44, 3, 2370791092556660736)], [(18, 25165817); (20, 25165817); (25, 25165817); (27, 25165817); (31, 25165817); (35, 16777216); (36, 20971520); (37, 23068672); (38, 25133056); (39, 25149440); (40, 25157632); (41, 25161728); (42, 25164800); (43, 25165312); (44, 25165696); (45, 25165816); (46, 25165816); (47, 25165817); (48, 1008806336588152825); (49, 25165817)]);
  ([(47, 3, 2370791092556660736)], []);
  ([(160, 2, 167772160)], [(48, 17347641344); (53, 167772160)]);
  ([(59, 2, 134217728)], [(48, 134217728)]);
  ([(29, 3, 2370791092556660736); (30, 3, 2370791092556660736); (31, 3, 2370791092556660736); (32, 3, 2370791092556660736); (33, 3, 2370791092556660736); (34, 3, 2370791092556660736); (35, 3, 2370791092556660736); (36, 3, 2370791092556660736); (37, 3, 2370791092556660736); (38, 3, 2370791092556660736); (39, 3, 2370791092556660736); (40, 3, 2370791092556660736)], [(1, 1924145348608); (3, 1127824052191232); (4, 55940883954008064); (5, 55940883954008064); (6, 55940883954008064); (7, 55940884088225792); (8, 1374389534720); (9, 1924145348608); (10, 1924145348608); (11, 55940884088225792); (13, 8589934592); (14, 8589934592); (15, 55940883954008064); (16, 8606711808); (17, 55940883954008064); (19, 8606711808); (48, 1008806345169698816); (50, 55940883954008064); (51, 1924145348608)]);
  ([(48, 3, 2370791092556660736)], [(28, 2370791092556660736)]);
  ([(20, 3, 2370791092422443008)], [(18, 2370791092447608825); (20, 2370791092447608825); (24, 2370791092422443008); (25, 2370791092447608825); (27, 2370791092447608825); (31, 2370791092447608825); (35, 2370791092439220224); (36, 2370791092443414528); (37, 2370791092445511680); (38, 2370791092447576064); (39, 2370791092447592448); (40, 2370791092447600640); (41, 2370791092447604736); (42, 2370791092447607808); (43, 2370791092447608320); (44, 2370791092447608704); (45, 2370791092447608824); (46, 2370791092447608824); (47, 2370791092447608825); (48, 3379597429010595833); (49, 2370791092447608825); (56, 2370791092422443008)]);
  ([(19, 3, 2370791092422443008)], []);
  ([(18, 3, 2370791092422443008)], [(18, 2370791092430831609); (20, 2370791092430831609); (25, 2370791092430831609); (27, 2370791092430831609); (31, 2370791092430831609); (35, 2370791092422443008); (36, 2370791092426637312); (37, 2370791092428734464); (38, 2370791092430798848); (39, 2370791092430815232); (40, 2370791092430823424); (41, 2370791092430827520); (42, 2370791092430830592); (43, 2370791092430831104); (44, 2370791092430831488); (45, 2370791092430831608); (46, 2370791092430831608); (47, 2370791092430831609); (48, 3379597428993818617); (49, 2370791092430831609)]);
  ([(56, 3, 2314852132613783552)], []);
  ([(166, 2, 2370791092690878464)], [(18, 2370791092716044281); (20, 2370791092716044281); (25, 2370791092716044281); (27, 2370791092716044281); (31, 2370791092716044281); (35, 2370791092707655680); (36, 2370791092711849984); (37, 2370791092713947136); (38, 2370791092716011520); (39, 2370791092716027904); (40, 2370791092716036096); (41, 2370791092716040192); (42, 2370791092716043264); (43, 2370791092716043776); (44, 2370791092716044160); (45, 2370791092716044280); (46, 2370791092716044280); (47, 2370791092716044281); (48, 3379597429279031289); (49, 2370791092716044281); (56, 2370791092690878464)]);
  ([(27, 3, 2370791092556660736); (28, 3, 2370791092556660736)], [(1, 1099511627776); (3, 1126999418470400); (4, 55940059320287232); (5, 55940059320287232); (6, 55940059320287232); (7, 55940059454504960); (10, 1099511627776); (11, 55940059454504960); (13, 8589934592); (14, 8589934592); (15, 55940059320287232); (16, 8606711808); (17, 55940059320287232); (19, 8606711808); (48, 1008806345169698816); (50, 55940059320287232)]);
  ([(3, 3, 4611686018427387904)], []);
  ([(14, 3, 2370791092422443008)], []);
  ([(17, 3, 2370791092422443008)], []);
  ([(74, 1, 8606711808)], [(18, 276824057); (20, 276824057); (25, 276824057); (27, 276824057); (31, 276824057); (35, 268435456); (36, 272629760); (37, 274726912); (38, 276791296); (39, 276807680); (40, 276815872); (41, 276819968); (42, 276823040); (43, 276823552); (44, 276823936); (45, 276824056); (46, 276824056); (47, 276824057); (48, 1008806336839811065); (49, 276824057)]);
  ([(161, 1, 8589934592); (162, 1, 8589934592)], []);
  ([(63, 3, 8589934592)], []);
  ([(61, 3, 8589934592)], []);
  ([(79, 2, 3381849243051360249)], [(26, 3381849243051360249); (31, 3381849243051360249); (49, 3381849243051360249)]);
  ([(92, 2, 3381849243051360249)], []);
  ([(91, 2, 3381849243051360249)], []);
  ([(77, 2, 3381849243051360249)], []);
  ([(78, 2, 3381849243051360249)], []);
  ([(158, 2, 3381849243051360249)], []);
  ([(70, 3, 2373042897898438649); (74, 3, 2373042897898438649)], [(21, 2373042897898438649); (22, 3381849234461425657); (26, 3381849234461425657); (31, 3381849234461425657); (49, 3381849234461425657); (52, 3381849234461425657)]);
  ([(106, 2, 4320133120)], []);
  ([(103, 3, 3381849243051360249)], []);
  ([(110, 1, 1121688818781528326)], []);
  ([(109, 1, 1121688818781528326)], []);
  ([(170, 2, 4294967296); (171, 2, 4294967296)], [(18, 4328521721); (20, 4328521721); (25, 4328521721); (27, 4328521721); (31, 4328521721); (33, 4320133120); (35, 4320133120); (36, 4324327424); (37, 4326424576); (38, 4328488960); (39, 4328505344); (40, 4328513536); (41, 4328517632); (42, 4328520704); (43, 4328521216); (44, 4328521600); (45, 4328521720); (46, 4328521720); (47, 4328521721); (48, 1008806349481443321); (49, 4328521721); (58, 4294967296)]);
  ([(107, 2, 4320133120)], [(18, 4328521721); (20, 4328521721); (25, 4328521721); (27, 4328521721); (31, 4328521721); (35, 4320133120); (36, 4324327424); (37, 4326424576); (38, 4328488960); (39, 4328505344); (40, 4328513536); (41, 4328517632); (42, 4328520704); (43, 4328521216); (44, 4328521600); (45, 4328521720); (46, 4328521720); (47, 4328521721); (48, 1008806340891508729); (49, 4328521721)]);
  ([(96, 2, 2373042898032656377); (97, 2, 2373042898032656377)], [(1, 1099511627776); (3, 1126999418470400); (4, 55940059320287232); (5, 55940059320287232); (6, 55940059320287232); (7, 55940059454504960); (10, 1099511627776); (11, 55940059454504960); (13, 8589934592); (14, 8589934592); (15, 55940059320287232); (16, 8606711808); (17, 55940059320287232); (19, 8606711808); (48, 1008806345169698816); (50, 55940059320287232)]);
  ([(102, 1, 285212672)], []);
  ([(98, 2, 2373042898032656377); (99, 2, 2373042898032656377)], []);
  ([(167, 1, 268435456); (168, 1, 268435456)], []);
  ([(101, 1, 285212672)], []);
  ([(100, 1, 268435456)], []);
  ([(68, 4, 2370791092422443008); (71, 4, 8606711808)], []);
  ([(112, 3, 2373042897894244352); (114, 1, 2373042897896341504)], []);
  ([(114, 3, 2373042897896341504); (116, 1, 2373042897898405888); (117, 1, 2373042897898405888); (118, 1, 2373042897898405888); (119, 1, 2373042897898405888); (120, 1, 2373042897898405888); (121, 1, 2373042897898405888)], []);
  ([(116, 3, 2373042897898405888); (123, 1, 2373042897898422272)], []);
  ([(117, 3, 2373042897898405888); (123, 1, 2373042897898422272)], []);
  ([(118, 3, 2373042897898405888); (123, 1, 2373042897898422272)], []);
  ([(119, 3, 2373042897898405888); (123, 1, 2373042897898422272)], []);
  ([(120, 3, 2373042897898405888); (123, 1, 2373042897898422272)], []);
  ([(121, 3, 2373042897898405888); (123, 1, 2373042897898422272)], []);
  ([(123, 3, 2373042897898422272); (125, 1, 2373042897898430464)], []);
  ([(125, 3, 2373042897898430464); (127, 1, 2373042897898434560)], []);
  ([(127, 3, 2373042897898434560); (129, 1, 2373042897898437632); (130, 1, 2373042897898437632)], []);
  ([(129, 3, 2373042897898437632); (132, 1, 2373042897898438144)], []);
  ([(130, 3, 2373042897898437632); (132, 1, 2373042897898438144)], []);
  ([(132, 3, 2373042897898438144); (134, 1, 2373042897898438528); (135, 1, 2373042897898438528)], []);
  ([(134, 3, 2373042897898438528); (137, 1, 2373042897898438648); (138, 1, 2373042897898438648); (139, 1, 2373042897898438648); (140, 1, 2373042897898438648)], []);
  ([(135, 3, 2373042897898438528); (137, 1, 2373042897898438648); (138, 1, 2373042897898438648); (139, 1, 2373042897898438648); (140, 1, 2373042897898438648)], []);
  ([(137, 3, 2373042897898438648)], []);
  ([(138, 3, 2373042897898438648)], []);
  ([(139, 3, 2373042897898438648)], []);
  ([(140, 3, 2373042897898438648)], []);
  ([(147, 3, 2373042897898438649)], []);
  ([(45, 4, 2370791092556660736); (46, 4, 2370791092556660736)], []);
  ([(164, 3, 2370861469890772992)], []);
  ([(41, 4, 2370791092556660736); (42, 4, 2370791092556660736); (43, 4, 2370791092556660736); (44, 4, 2370791092556660736)], []);
  ([(160, 3, 167772160)], []);
  ([(59, 3, 134217728)], []);
  ([(31, 4, 2370791092556660736); (33, 4, 2370791092556660736)], [(1, 1099511627776); (3, 1126999418470400); (4, 55940059320287232); (5, 55940059320287232); (6, 55940059320287232); (7, 55940059454504960); (10, 1099511627776); (11, 55940059454504960); (13, 8589934592); (14, 8589934592); (15, 55940059320287232); (16, 8606711808); (17, 55940059320287232); (19, 8606711808); (48, 1008806345169698816); (50, 55940059320287232)]);
  ([(51, 1, 1924145348608); (52, 1, 1924145348608)], [(18, 2251799822073849); (20, 2251799822073849); (25, 2251799822073849); (27, 2251799822073849); (31, 2251799822073849); (35, 2251799813685248); (36, 2251799817879552); (37, 2251799819976704); (38, 2251799822041088); (39, 2251799822057472); (40, 2251799822065664); (41, 2251799822069760); (42, 2251799822072832); (43, 2251799822073344); (44, 2251799822073728); (45, 2251799822073848); (46, 2251799822073848); (47, 2251799822073849); (48, 1011058136385060857); (49, 2251799822073849)]);
  ([(29, 4, 2370791092556660736)], []);
  ([(30, 4, 2370791092556660736); (32, 4, 2370791092556660736); (34, 4, 2370791092556660736); (36, 4, 2370791092556660736); (38, 4, 2370791092556660736); (40, 4, 2370791092556660736)], [(8, 1374389534720); (9, 1924145348608); (51, 1924145348608)]);
  ([(35, 4, 2370791092556660736); (37, 4, 2370791092556660736); (39, 4, 2370791092556660736)], []);
  ([(155, 1, 1924145348608)], []);
  ([(50, 1, 1374389534720); (156, 1, 1924145348608)], [(9, 1924145348608)]);
  ([(48, 4, 2370791092556660736)], []);
  ([(20, 4, 2370791092422443008)], []);
  ([(18, 4, 2370791092422443008)], []);
  ([(166, 3, 2370791092690878464)], []);
  ([(27, 4, 2370791092556660736)], []);
  ([(28, 4, 2370791092556660736)], []);
  ([(74, 2, 8606711808)], []);
  ([(162, 2, 8589934592)], [(20, 8606711808); (48, 1008806345169698816); (54, 8589934592)]);
  ([(79, 3, 3381849243051360249)], []);
  ([(91, 3, 3381849243051360249)], []);
  ([(77, 3, 3381849243051360249)], []);
  ([(74, 4, 2373042906488373241)], []);
  ([(106, 3, 4320133120)], []);
  ([(171, 3, 4294967296)], []);
  ([(107, 3, 4320133120)], []);
  ([(96, 3, 2373042898032656377)], []);
  ([(97, 3, 2373042898032656377)], []);
  ([(98, 3, 2373042898032656377); (99, 3, 2373042898032656377)], [(1, 1099511627776); (3, 1126999418470400); (4, 55940059320287232); (5, 55940059320287232); (6, 55940059320287232); (7, 55940059454504960); (10, 1099511627776); (11, 55940059454504960); (13, 8589934592); (14, 8589934592); (15, 55940059320287232); (16, 8606711808); (17, 55940059320287232); (19, 8606711808); (48, 1008806345169698816); (50, 55940059320287232)]);
  ([(168, 2, 268435456)], [(30, 285212672); (48, 285212672); (57, 268435456)]);
  ([(45, 5, 2370791092556660736); (46, 5, 2370791092556660736)], [(1, 1099511627776); (3, 1126999418470400); (4, 55940059320287232); (5, 55940059320287232); (6, 55940059320287232); (7, 55940059454504960); (10, 1099511627776); (11, 55940059454504960); (13, 8589934592); (14, 8589934592); (15, 55940059320287232); (16, 8606711808); (17, 55940059320287232); (19, 8606711808); (48, 1008806345169698816); (50, 55940059320287232)]);
  ([(41, 5, 2370791092556660736); (42, 5, 2370791092556660736); (43, 5, 2370791092556660736); (44, 5, 2370791092556660736)], [(18, 137464119289); (20, 137464119289); (25, 137464119289); (27, 137464119289); (31, 137464119289); (35, 137455730688); (36, 137459924992); (37, 137462022144); (38, 137464086528); (39, 137464102912); (40, 137464111104); (41, 137464115200); (42, 137464118272); (43, 137464118784); (44, 137464119168); (45, 137464119288); (46, 137464119288); (47, 137464119289); (48, 1008806474027106297); (49, 137464119289)]);
  ([(31, 5, 2370791092556660736)], []);
  ([(33, 5, 2370791092556660736)], []);
  ([(51, 2, 1924145348608); (52, 2, 1924145348608)], []);
  ([(32, 5, 2370791092556660736); (34, 5, 2370791092556660736)], [(1, 1099511627776); (3, 1126999418470400); (4, 55940059320287232); (5, 55940059320287232); (6, 55940059320287232); (7, 55940059454504960); (10, 1099511627776); (11, 55940059454504960); (13, 8589934592); (14, 8589934592); (15, 55940059320287232); (16, 8606711808); (17, 55940059320287232); (19, 8606711808); (48, 1008806345169698816); (50, 55940059320287232)]);
  ([(30, 5, 2370791092556660736)], []);
  ([(36, 5, 2370791092556660736); (38, 5, 2370791092556660736); (40, 5, 2370791092556660736)], []);
  ([(37, 5, 2370791092556660736); (39, 5, 2370791092556660736)], [(1, 1099511627776); (3, 1126999418470400); (4, 55940059320287232); (5, 55940059320287232); (6, 55940059320287232); (7, 55940059454504960); (10, 1099511627776); (11, 55940059454504960); (13, 8589934592); (14, 8589934592); (15, 55940059320287232); (16, 8606711808); (17, 55940059320287232); (19, 8606711808); (48, 1008806345169698816); (50, 55940059320287232)]);
  ([(35, 5, 2370791092556660736)], []);
  ([(156, 2, 1924145348608)], []);
  ([(28, 5, 2370791092556660736)], []);
  ([(74, 3, 8606711808)], [(21, 8606711808); (22, 1008806345169698816); (26, 1008806345169698816); (31, 1008806345169698816); (49, 1008806345169698816); (52, 1008806345169698816)]);
  ([(162, 3, 8589934592)], []);
  ([(106, 4, 4320133120)], [(18, 4328521721); (20, 4328521721); (25, 4328521721); (27, 4328521721); (31, 4328521721); (35, 4320133120); (36, 4324327424); (37, 4326424576); (38, 4328488960); (39, 4328505344); (40, 4328513536); (41, 4328517632); (42, 4328520704); (43, 4328521216); (44, 4328521600); (45, 4328521720); (46, 4328521720); (47, 4328521721); (48, 1008806340891508729); (49, 4328521721)]);
  ([(97, 4, 2373042898032656377)], []);
  ([(98, 4, 2373042898032656377)], []);
  ([(99, 4, 2373042898032656377)], []);
  ([(168, 3, 268435456)], []);
  ([(45, 6, 2370791092556660736)], []);
  ([(46, 6, 2370791092556660736)], []);
  ([(41, 6, 2370791092556660736); (42, 6, 2370791092556660736); (43, 6, 2370791092556660736); (44, 6, 2370791092556660736)], []);
  ([(33, 6, 2370791092556660736)], []);
  ([(51, 3, 1924145348608); (52, 3, 1924145348608)], [(1, 1924145348608); (3, 1127824052191232); (4, 55940883954008064); (5, 55940883954008064); (6, 55940883954008064); (7, 55940884088225792); (10, 1924145348608); (11, 55940884088225792); (13, 8589934592); (14, 8589934592); (15, 55940883954008064); (16, 8606711808); (17, 55940883954008064); (19, 8606711808); (48, 1008806345169698816); (50, 55940883954008064)]);
  ([(32, 6, 2370791092556660736)], []);
  ([(34, 6, 2370791092556660736)], []);
  ([(38, 6, 2370791092556660736); (40, 6, 2370791092556660736)], [(1, 1099511627776); (3, 1126999418470400); (4, 55940059320287232); (5, 55940059320287232); (6, 55940059320287232); (7, 55940059454504960); (10, 1099511627776); (11, 55940059454504960); (13, 8589934592); (14, 8589934592); (15, 55940059320287232); (16, 8606711808); (17, 55940059320287232); (19, 8606711808); (48, 1008806345169698816); (50, 55940059320287232)]);
  ([(36, 6, 2370791092556660736)], []);
  ([(37, 6, 2370791092556660736)], []);
  ([(39, 6, 2370791092556660736)], []);
  ([(106, 5, 4320133120)], []);
  ([(99, 5, 2373042898032656377)], []);
  ([(46, 7, 2370791092556660736)], []);
  ([(43, 7, 2370791092556660736); (44, 7, 2370791092556660736)], [(18, 137447342073); (20, 137447342073); (25, 137447342073); (27, 137447342073); (31, 137447342073); (35, 137438953472); (36, 137443147776); (37, 137445244928); (38, 137447309312); (39, 137447325696); (40, 137447333888); (41, 137447337984); (42, 137447341056); (43, 137447341568); (44, 137447341952); (45, 137447342072); (46, 137447342072); (47, 137447342073); (48, 1008806474010329081); (49, 137447342073)]);
  ([(41, 7, 2370791092556660736); (42, 7, 2370791092556660736)], [(1, 1099511627776); (3, 1126999418470400); (4, 55940059320287232); (5, 55940059320287232); (6, 55940059320287232); (7, 55940059454504960); (10, 1099511627776); (11, 55940059454504960); (13, 8589934592); (14, 8589934592); (15, 55940059320287232); (16, 8606711808); (17, 55940059320287232); (19, 8606711808); (48, 1008806345169698816); (50, 55940059320287232)]);
  ([(52, 4, 1924145348608)], []);
  ([(34, 7, 2370791092556660736)], []);
  ([(38, 7, 2370791092556660736)], []);
  ([(40, 7, 2370791092556660736)], []);
  ([(39, 7, 2370791092556660736)], []);
  ([(43, 8, 2370791092556660736); (44, 8, 2370791092556660736)], []);
  ([(41, 8, 2370791092556660736)], []);
  ([(42, 8, 2370791092556660736)], []);
  ([(40, 8, 2370791092556660736)], []);
  ([(43, 9, 2370791092556660736); (44, 9, 2370791092556660736)], [(1, 1099511627776); (3, 1126999418470400); (4, 55940059320287232); (5, 55940059320287232); (6, 55940059320287232); (7, 55940059454504960); (10, 1099511627776); (11, 55940059454504960); (13, 8589934592); (14, 8589934592); (15, 55940059320287232); (16, 8606711808); (17, 55940059320287232); (19, 8606711808); (48, 1008806345169698816); (50, 55940059320287232)]);
  ([(42, 9, 2370791092556660736)], []);
  ([(43, 10, 2370791092556660736)], []);
  ([(44, 10, 2370791092556660736)], []);
  ([(44, 11, 2370791092556660736)], [])
]%N.

Definition lua_first : list N := [3514703473763418112; 55938959942877184; 1152921504606846976; 54813060036034560; 54813059901816832; 134217728; 36732484460740608; 18221312929431552; 549755813888; 549755813888; 1125899906842624; 67108864; 36028797018963968; 134217728; 36028797018963968; 36028797018963968; 36028797018963968; 134217728; 36028797153181696; 134217728; 36028797153181696; 1008806336562987008; 1008806336562987008; 36028797018963968; 1121688813949690118; 1121688813949681664; 1008806318812692480; 8796093022208; 134217728; 36028831378702336; 36028831378702336; 2147483648; 1121688814486561030; 1121688814486561030; 25165824; 1121688813949690118; 1121688813949690118; 1121688813949690118; 1121688813949690118; 1121688813949690118; 1121688813949690118; 1121688813949690118; 1121688813949690118; 1121688813949690118; 1121688813949690118; 1121688813949690118; 1121688813949690118; 1121688813949681664; 36028797018963968; 1008806316530991104; 54813059901816832; 549755813888; 1008806336562987008; 36028797018963968; 36028797153181696; 36028797018963968; 1121688813949690118; 36028831378702336; 1121688814486561030]%N.

Definition lua_rank : list nat := [1; 5; 1; 4; 2; 1; 1; 1; 2; 0; 1; 0; 3; 1; 3; 0; 2; 0; 3; 0; 2; 5; 3; 3; 19; 4; 2; 0; 0; 4; 2; 0; 20; 18; 1; 17; 16; 15; 14; 13; 12; 11; 10; 9; 8; 7; 6; 5; 1; 1; 3; 1; 4; 2; 3; 2; 18; 3; 19].
