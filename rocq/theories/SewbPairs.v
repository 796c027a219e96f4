(** * The stored affine maps are self-equivalences of the S-box

    In the form S = phi o inv o phi of the S-box, A[n] is phi^-1 o (y -> a y^(2^k)) o phi and B[n] undoes the effect:
    inv (a y^(2^k)) = inv a * (inv y)^(2^k).  [certs] gives a and k for each n; both sides are affine, so equality
    is checked at 0 and at the eight unit vectors. *)
From Verif Require Import Base Word32 Sm4Spec MatModel MatSpec MatProofs Wbsm4Proofs Gf8Proofs SewbTables.
Local Open Scope N_scope.

Definition certs : list (N * N) := [
  (147,1); (86,4); (103,7); (55,6); (179,2); (171,3); (140,5); (178,4); (39,7); (54,2); (235,1); (244,3); (56,5); (229,6); (97,0); (40,2); (172,6); (219,1); (47,7); (154,0);
  (205,4); (227,3); (196,5); (142,4); (134,7); (159,0); (136,3); (193,6); (241,1); (100,5); (152,2); (246,7); (43,3); (98,2); (216,5); (35,4); (158,1); (225,0); (232,6); (250,2);
  (188,5); (126,0); (112,7); (111,1); (163,3); (173,4); (41,6); (151,6); (61,4); (10,7); (27,3); (168,0); (207,5); (150,1); (153,2); (158,5); (98,6); (216,1); (232,2); (43,7);
  (35,0); (225,4); (246,3); (254,5); (26,6); (36,3); (124,0); (161,4); (92,2); (60,1); (174,7); (146,2); (218,6); (80,0); (253,5); (32,3); (24,4); (102,1); (187,7); (123,7);
  (68,5); (200,2); (217,6); (69,0); (74,1); (28,4); (238,3); (113,1); (78,0); (237,2); (33,6); (81,4); (245,5); (220,3); (139,7); (213,5); (195,4); (189,2); (202,1); (186,3);
  (148,0); (118,7); (57,6); (158,0); (43,2); (216,4); (225,7); (35,3); (98,1); (232,5); (246,6); (108,4); (199,3); (58,5); (231,1); (230,0); (182,6); (116,2); (248,6); (177,5);
  (50,3); (37,2); (77,4); (59,1); (11,0); (240,7); (166,3); (222,0); (83,2); (12,5); (66,6); (51,7); (2,1); (135,4); (115,3); (144,2); (190,4); (249,7); (184,1); (214,6);
  (122,5); (99,0); (126,3); (41,1); (163,6); (112,2); (111,4); (250,5); (188,0); (173,7); (201,1); (125,2); (45,0); (175,3); (114,7); (143,5); (247,6); (239,4); (111,5); (250,6);
  (126,4); (173,0); (41,2); (188,1); (163,7); (112,3); (64,2); (120,4); (95,6); (210,1); (133,5); (96,3); (228,7); (180,0); (95,2); (133,1); (96,7); (180,4); (210,5); (228,3);
  (120,0); (27,7); (153,6); (61,0); (168,4); (151,2); (10,3); (207,1); (150,5); (30,2); (23,3); (48,1); (251,0); (8,7); (127,4); (73,6); (252,5); (222,6); (83,0); (135,2);
  (51,5); (166,1); (2,7); (12,3); (66,4); (175,1); (239,2); (247,4); (143,3); (201,7); (45,6); (114,5); (125,0); (248,5); (177,4); (37,1); (240,6); (50,2); (77,3); (59,0);
  (11,7); (116,4); (58,7); (182,0); (231,3); (108,6); (129,1); (199,5); (230,2); (48,6); (251,5); (30,7); (252,2); (8,4); (23,0); (127,1); (73,3); (131,6); (65,0); (203,2);
  (104,5); (243,1); (181,7); (46,3); (9,4); (232,7); (216,6); (43,4); (98,3); (35,5); (158,2); (225,1); (246,0); (247,0); (239,6); (114,1); (175,5); (45,2); (143,7); (201,3);
  (125,4); (218,2); (80,4); (102,5); (253,1); (187,3); (146,6); (24,0); (32,7); (238,7); (200,6); (28,0); (69,4); (217,2); (123,3); (68,1); (74,5); (135,6); (222,2); (166,5);
  (66,0); (51,1); (12,7); (83,4); (2,3); (85,1); (91,5); (76,2); (93,6); (18,0); (75,4); (34,3); (183,7); (128,1); (13,7); (223,4); (209,0); (117,2); (84,3); (224,6);
  (145,5); (120,7); (64,5); (228,2); (96,6); (133,0); (95,1); (210,4); (180,3); (24,5); (187,0); (146,3); (102,2); (32,4); (253,6); (218,7); (80,1); (226,5); (94,6); (236,3);
  (7,0); (79,4); (22,2); (121,1); (119,7); (234,4); (165,5); (110,0); (105,1); (71,6); (25,7); (6,3); (16,2); (156,5); (49,6); (164,0); (141,7); (197,3); (170,2); (212,1);
  (63,4); (42,6); (169,4); (67,1); (5,5); (176,7); (107,0); (109,3); (160,2); (158,3); (35,6); (216,7); (225,2); (43,5); (232,0); (98,4); (246,1); (103,4); (86,1); (179,7);
  (140,2); (171,0); (55,3); (147,6); (1,5); (109,4); (176,0); (67,2); (5,6); (169,5); (107,1); (160,3); (42,7); (35,2); (216,3); (98,0); (246,5); (43,1); (158,7); (225,6);
  (232,4); (251,4); (252,1); (73,2); (127,0); (8,3); (30,6); (48,5); (245,1); (81,0); (33,2); (237,6); (78,4); (113,5); (139,3); (220,7); (36,7); (174,3); (161,0); (124,4);
  (26,2); (92,6); (254,1); (60,5); (37,5); (50,6); (59,4); (177,0); (240,2); (248,1); (77,7); (11,3); (13,1); (84,5); (117,4); (145,7); (223,6); (128,3); (209,2); (224,0);
  (69,5); (123,4); (74,6); (68,2); (238,0); (28,1); (200,7); (217,3); (53,3); (52,4); (20,6); (167,5); (101,1); (233,0); (191,7); (82,2); (180,5); (133,2); (228,4); (64,7);
  (96,0); (120,1); (95,3); (210,6); (254,3); (26,4); (60,7); (92,0); (174,5); (124,6); (161,2); (36,1); (61,3); (168,7); (10,6); (207,4); (153,1); (27,2); (150,0); (151,5);
  (19,0); (255,2); (29,4); (208,7); (137,3); (198,1); (215,5); (106,6); (33,4); (237,0); (139,5); (78,6); (220,1); (245,3); (81,2); (113,7); (147,2); (140,6); (86,5); (179,3);
  (103,0); (1,1); (55,7); (171,4); (224,5); (223,3); (13,6); (84,2); (209,7); (145,4); (128,0); (117,1); (224,1); (223,7); (128,4); (145,0); (13,2); (209,3); (84,6); (117,5);
  (109,0); (107,5); (42,3); (176,4); (169,1); (67,6); (160,7); (5,2); (71,7); (110,1); (234,5); (6,4); (25,0); (165,6); (105,2); (16,3); (59,6); (177,2); (77,1); (240,4);
  (50,0); (37,7); (11,5); (73,4); (30,0); (251,6); (127,2); (8,5); (23,1); (48,7); (252,3); (51,4); (2,6); (12,2); (135,1); (222,5); (66,3); (83,7); (166,0); (99,3);
  (214,1); (190,7); (115,6); (249,2); (184,4); (144,5); (122,0); (192,6); (3,5); (206,2); (21,7); (4,3); (185,4); (90,1); (44,0); (38,2); (130,1); (62,7); (162,6); (15,0);
  (157,5); (88,4); (242,3); (198,0); (106,5); (29,3); (208,6); (215,4); (19,7); (137,2); (255,1); (94,4); (79,2); (119,5); (236,1); (7,6); (226,3); (121,7); (22,0); (33,7);
  (237,3); (113,2); (81,5); (220,4); (78,1); (139,0); (245,6); (172,5); (154,7); (219,0); (196,4); (47,6); (40,1); (205,3); (227,2); (109,1); (160,0); (169,2); (107,6); (42,4);
  (176,5); (5,3); (67,7); (221,6); (194,7); (138,1); (221,2); (194,3); (70,4); (70,0); (138,5); (76,4); (93,0); (85,3); (183,1); (18,2); (75,6); (34,5); (91,7); (80,3);
  (146,5); (24,7); (187,2); (32,6); (102,4); (253,0); (218,1); (221,7); (194,0); (221,3); (194,4); (70,1); (138,2); (138,6); (70,5); (191,0); (53,4); (167,6); (82,3); (233,1);
  (101,2); (20,7); (52,5); (113,4); (237,5); (81,7); (245,0); (33,1); (139,2); (220,6); (78,3); (227,4); (154,1); (172,7); (219,2); (47,0); (40,3); (196,6); (205,5); (183,4);
  (34,0); (93,3); (75,1); (91,2); (85,6); (18,5); (76,7); (206,3); (192,7); (3,6); (4,4); (44,1); (90,2); (21,0); (185,5); (188,7); (250,4); (173,6); (163,5); (41,0);
  (126,2); (111,3); (61,6); (207,7); (27,5); (10,1); (150,3); (168,2); (151,0); (153,4); (162,3); (242,0); (130,6); (38,7); (62,4); (88,1); (157,2); (15,5); (170,1); (49,5);
  (212,0); (63,3); (156,4); (197,2); (164,7); (141,6); (126,5); (112,4); (111,6); (173,1); (41,3); (250,7); (163,0); (188,2); (122,7); (115,5); (184,3); (99,2); (190,6); (214,0);
  (249,1); (144,4); (143,0); (247,1); (45,3); (201,4); (125,5); (175,6); (114,2); (239,7); (102,0); (253,4); (80,7); (218,5); (187,6); (32,2); (146,1); (24,3); (204,3); (87,0);
  (132,6); (204,7); (87,4); (31,1); (132,2); (31,5); (204,5); (87,2); (132,4); (31,7); (132,0); (204,1); (31,3); (87,6); (93,4); (34,1); (91,3); (18,6); (85,7); (76,0);
  (75,2); (183,5); (193,4); (152,0); (136,1); (134,5); (100,3); (241,7); (142,2); (159,6); (166,2); (51,6); (2,0); (66,5); (135,3); (12,4); (83,1); (222,7); (25,2); (16,5);
  (6,6); (71,1); (105,4); (234,7); (110,3); (165,0); (1,6); (55,4); (147,7); (140,3); (179,0); (103,5); (171,1); (86,2); (89,6); (14,3); (149,5); (17,4); (14,7); (149,1);
  (17,0); (89,2); (248,0); (11,2); (59,3); (177,7); (240,1); (37,4); (77,6); (50,5); (195,6); (202,3); (118,1); (148,2); (213,7); (189,4); (186,5); (57,0); (204,6); (31,4);
  (87,7); (87,3); (31,0); (132,5); (132,1); (204,2); (139,6); (33,5); (78,7); (220,2); (245,4); (113,0); (237,1); (81,3); (251,2); (73,0); (23,5); (8,1); (48,3); (30,4);
  (252,7); (127,6); (177,6); (59,2); (50,4); (11,1); (248,7); (240,0); (77,5); (37,3); (154,5); (47,4); (205,1); (219,6); (172,3); (227,0); (40,7); (22,1); (79,3); (226,4);
  (121,0); (236,2); (94,5); (7,7); (119,6); (185,7); (21,2); (206,5); (90,4); (4,6); (3,0); (192,1); (44,3); (88,3); (162,5); (62,6); (242,2); (157,4); (15,7); (38,1);
  (130,0); (241,4); (134,2); (152,5); (193,1); (136,6); (159,3); (142,7); (100,0); (229,1); (54,5); (56,0); (244,6); (178,7); (97,3); (39,2); (235,4); (151,7); (168,1); (153,3);
  (207,6); (150,2); (10,0); (27,4); (61,5); (255,4); (29,6); (106,0); (198,3); (215,7); (137,5); (208,1); (19,2); (174,4); (60,6); (254,2); (161,1); (124,5); (26,3); (92,7);
  (36,0); (148,6); (189,0); (186,1); (118,5); (202,7); (195,2); (57,4); (213,3); (72,4); (155,3); (155,5); (72,0); (72,2); (72,6); (155,7); (155,1); (11,6); (248,4); (50,1);
  (240,5); (59,7); (37,0); (177,3); (77,2); (183,0); (34,4); (76,3); (18,1); (91,6); (93,7); (75,5); (85,2); (71,3); (165,2); (234,1); (6,0); (110,5); (16,7); (105,6);
  (2,2); (12,6); (51,0); (166,4); (66,7); (83,3); (222,1); (135,5); (191,4); (233,5); (20,3); (82,7); (52,1); (53,0); (101,6); (167,2); (242,1); (62,5); (88,2); (15,6);
  (38,0); (162,4); (107,3); (5,0); (176,2); (42,1); (67,4); (109,6); (160,5); (169,7); (147,0); (103,6); (86,3); (1,7); (179,1); (171,2); (55,5); (140,4); (206,0); (90,7);
  (192,4); (44,6); (3,3); (185,2); (21,5); (29,5); (19,1); (208,0); (215,6); (255,3); (137,4); (198,2); (106,7); (230,5); (231,6); (129,4); (199,0); (58,2); (108,1); (116,7);
  (182,3); (182,7); (129,0); (116,3); (199,4); (108,5); (230,1); (58,6); (122,2); (144,7); (99,5); (115,0); (184,6); (190,1); (249,4); (214,3); (113,3); (81,6); (139,1); (33,0);
  (78,2); (237,4); (220,5); (245,7); (226,1); (119,3); (121,5); (79,0); (7,4); (94,2); (22,6); (236,7); (42,2); (109,7); (5,1); (107,4); (67,5); (160,6); (169,0); (176,3);
  (174,1); (161,6); (26,0); (60,3); (92,4); (36,5); (254,7); (124,2); (231,5); (58,1); (108,0); (129,3); (182,2); (199,7); (116,6); (230,4); (48,2); (252,6); (30,3); (23,4);
  (73,7); (251,1); (8,0); (127,5); (243,5); (203,6); (9,0); (104,1); (131,2); (181,3); (46,7); (65,4); (246,2); (232,1); (43,6); (225,3); (35,7); (216,0); (98,5); (158,4);
  (20,1); (52,7); (101,4); (167,0); (191,2); (233,3); (53,6); (82,5); (47,5); (154,6); (227,1); (205,2); (219,7); (40,0); (172,4); (196,3); (229,4); (56,3); (244,1); (54,0);
  (178,2); (235,7); (97,6); (39,5); (85,0); (76,1); (18,7); (183,6); (93,5); (34,2); (91,4); (75,3); (224,7); (117,3); (145,6); (209,1); (128,2); (13,0); (223,5); (84,4);
  (215,2); (106,3); (29,1); (19,5); (255,7); (198,6); (208,4); (137,0); (122,6); (249,0); (99,1); (190,5); (214,7); (184,2); (115,4); (144,3); (128,6); (117,7); (209,5); (84,0);
  (13,4); (145,2); (224,3); (223,1); (151,1); (168,3); (61,7); (27,6); (10,2); (207,0); (150,4); (153,5); (156,1); (212,5); (49,2); (141,3); (170,6); (63,0); (197,7); (164,4);
  (234,0); (165,1); (6,7); (16,6); (105,5); (71,2); (110,4); (25,3); (19,4); (198,5); (29,0); (215,1); (255,6); (137,7); (208,3); (106,2); (57,2); (189,6); (202,5); (195,0);
  (186,7); (148,4); (118,3); (213,1); (225,5); (246,4); (35,1); (158,6); (216,2); (232,3); (43,0); (98,7); (58,3); (108,2); (116,0); (231,7); (199,1); (230,6); (129,5); (182,4);
  (59,5); (50,7); (77,0); (11,4); (37,6); (177,1); (240,3); (248,2); (164,2); (49,0); (212,3); (156,7); (170,4); (141,1); (197,5); (63,6); (186,2); (118,6); (202,0); (213,4);
  (57,5); (195,3); (189,1); (148,7); (46,6); (9,7); (131,1); (181,2); (65,3); (243,4); (104,0); (203,5); (165,7); (105,3); (25,1); (6,5); (71,0); (16,4); (234,6); (110,2);
  (180,7); (228,6); (210,0); (133,4); (95,5); (96,2); (64,1); (28,5); (68,6); (238,4); (217,7); (200,3); (69,1); (74,2); (123,0); (52,0); (167,1); (233,4); (101,5); (191,3);
  (53,7); (82,6); (223,0); (13,3); (209,4); (84,7); (224,2); (128,5); (145,1); (117,6); (167,4); (20,5); (52,3); (191,6); (53,2); (101,0); (82,1); (233,7); (25,5); (105,7);
  (6,1); (71,4); (16,0); (110,6); (234,2); (165,3); (156,3); (212,7); (197,1); (164,6); (49,4); (141,5); (63,2); (170,0); (34,6); (183,2); (85,4); (91,0); (75,7); (18,3);
  (76,5); (93,1); (226,6); (121,2); (7,1); (236,4); (22,3); (119,0); (94,7); (79,5); (231,0); (116,1); (230,7); (108,3); (182,5); (58,4); (199,2); (129,6); (199,6); (58,0);
  (129,2); (116,5); (182,1); (108,7); (230,3); (231,4); (193,3); (152,7); (134,4); (159,5); (136,0); (100,2); (142,1); (241,6); (125,6); (247,2); (143,1); (175,7); (45,4); (201,5);
  (114,3); (239,0); (1,4); (103,3); (55,2); (147,5); (171,7); (179,6); (86,0); (193,2); (152,6); (134,3); (159,4); (136,7); (100,1); (142,0); (241,5); (2,5); (83,6); (135,0);
  (12,1); (66,2); (51,3); (166,7); (222,4); (18,4); (85,5); (183,3); (93,2); (91,1); (76,6); (75,0); (34,7); (133,6); (64,3); (120,5); (96,4); (95,7); (180,1); (228,0);
  (210,2); (209,6); (224,4); (128,7); (145,3); (117,0); (13,5); (84,1); (223,2); (146,7); (24,1); (80,5); (187,4); (32,0); (102,6); (253,2); (218,3); (229,0); (54,4); (56,7);
  (97,2); (235,3); (39,1); (178,6); (244,5); (148,3); (195,7); (118,2); (189,5); (186,6); (202,4); (57,1); (213,0); (181,6); (203,1); (104,4); (9,3); (131,5); (65,7); (243,0);
  (46,2); (219,3); (40,4); (47,1); (205,6); (154,2); (172,0); (196,7); (227,5); (64,0); (96,1); (95,4); (228,5); (120,2); (133,3); (210,7); (180,6); (119,4); (22,7); (226,2);
  (79,1); (94,3); (7,5); (121,6); (236,0); (241,2); (152,3); (159,1); (136,4); (134,0); (100,6); (193,7); (142,5); (180,2); (210,3); (95,0); (96,5); (228,1); (133,7); (120,6);
  (64,4); (214,2); (122,1); (249,3); (144,6); (190,0); (99,4); (184,5); (115,7); (205,0); (40,6); (154,4); (47,3); (227,7); (196,1); (172,2); (219,5); (178,0); (56,1); (54,6);
  (39,3); (244,7); (235,5); (97,4); (229,2); (126,7); (173,3); (250,1); (41,5); (111,0); (188,4); (112,6); (163,2); (4,7); (90,5); (192,2); (206,6); (185,0); (3,1); (44,4);
  (21,3); (153,0); (168,6); (207,3); (150,7); (27,1); (61,2); (10,5); (151,4); (163,1); (188,3); (111,7); (126,6); (173,2); (250,0); (41,4); (112,5); (15,4); (88,0); (242,7);
  (130,5); (162,2); (62,3); (157,1); (38,6); (46,4); (181,0); (203,3); (65,1); (243,2); (104,6); (9,5); (131,7); (239,1); (247,3); (45,5); (175,0); (114,4); (143,2); (201,6);
  (125,7); (63,5); (197,4); (156,6); (212,2); (141,0); (164,1); (49,7); (170,3); (118,4); (202,6); (189,7); (57,3); (148,5); (186,0); (213,2); (195,1); (238,6); (69,3); (217,1);
  (74,4); (123,2); (200,5); (68,0); (28,7); (138,3); (70,2); (221,0); (138,7); (194,1); (70,6); (194,5); (221,4); (221,1); (138,0); (221,5); (194,2); (194,6); (70,7); (138,4);
  (70,3); (101,7); (53,1); (167,3); (233,6); (52,2); (82,0); (20,4); (191,5); (39,6); (178,3); (229,5); (235,0); (54,1); (244,2); (56,4); (97,7); (1,2); (86,6); (103,1);
  (179,4); (171,5); (147,3); (55,0); (140,7); (136,5); (152,4); (142,6); (134,1); (241,3); (100,7); (193,0); (159,2); (26,7); (254,6); (174,0); (92,3); (161,5); (124,1); (60,2);
  (36,4); (215,0); (255,5); (29,7); (137,6); (106,1); (19,3); (208,2); (198,4); (192,3); (3,2); (21,4); (4,0); (90,6); (206,7); (44,5); (185,1); (88,5); (15,1); (157,6);
  (162,7); (130,2); (242,4); (38,3); (62,0); (214,5); (144,1); (184,0); (249,6); (190,3); (122,4); (115,2); (99,7); (54,3); (235,2); (244,4); (39,0); (56,6); (229,7); (178,5);
  (97,1); (146,0); (218,4); (80,6); (253,3); (32,1); (24,2); (102,7); (187,5); (69,6); (200,0); (238,1); (123,5); (74,7); (28,2); (217,4); (68,3); (92,5); (36,6); (60,4);
  (124,3); (174,2); (161,7); (26,1); (254,0); (14,6); (14,2); (89,5); (17,3); (149,4); (149,0); (17,7); (89,1); (101,3); (191,1); (52,6); (233,2); (82,4); (53,5); (20,0);
  (167,7); (200,1); (28,3); (68,4); (74,0); (238,2); (217,5); (69,7); (123,6); (17,5); (89,3); (149,2); (149,6); (14,4); (14,0); (17,1); (19,6); (198,7); (137,1); (255,0);
  (106,4); (215,3); (29,2); (208,5); (83,5); (2,4); (51,2); (66,1); (222,3); (12,0); (135,7); (166,6); (234,3); (6,2); (110,7); (165,4); (105,0); (16,1); (25,6); (71,5);
  (27,0); (153,7); (61,1); (10,4); (150,6); (151,3); (207,2); (168,5); (9,2); (181,5); (203,0); (243,7); (46,1); (104,3); (131,4); (65,6); (87,5); (87,1); (31,6); (132,7);
  (31,2); (204,4); (132,3); (204,0); (89,4); (14,5); (149,3); (17,2); (14,1); (17,6); (89,0); (149,7); (251,3); (48,4); (8,2); (73,1); (252,0); (30,5); (127,7); (23,6);
  (49,1); (164,3); (212,4); (156,0); (141,2); (170,5); (63,7); (197,6); (67,3); (109,5); (5,7); (107,2); (169,6); (160,4); (42,0); (176,1); (119,1); (226,7); (7,2); (79,6);
  (121,3); (94,0); (22,4); (236,5); (114,6); (45,7); (247,5); (125,1); (239,3); (175,2); (201,0); (143,4); (185,3); (44,7); (206,1); (21,6); (3,4); (192,5); (4,2); (90,0);
  (1,3); (147,4); (55,1); (171,6); (103,2); (140,0); (86,7); (179,5); (42,5); (67,0); (169,3); (109,2); (5,4); (176,6); (107,7); (160,1); (130,4); (162,1); (88,7); (62,2);
  (157,0); (15,3); (242,6); (38,5); (148,1); (202,2); (195,5); (213,6); (189,3); (186,4); (118,0); (57,7); (56,2); (229,3); (178,1); (244,0); (54,7); (39,4); (235,6); (97,5);
  (60,0); (124,7); (26,5); (254,4); (174,6); (161,3); (36,2); (92,1); (243,6); (131,3); (9,1); (181,4); (104,2); (65,5); (46,0); (203,7); (211,4); (211,2); (211,5); (211,1);
  (211,6); (211,3); (211,7); (211,0); (8,6); (251,7); (30,1); (23,2); (127,3); (252,4); (48,0); (73,5); (203,4); (46,5); (104,7); (131,0); (181,1); (9,6); (243,3); (155,0);
  (155,2); (72,3); (72,7); (72,1); (155,4); (155,6); (72,5); (115,1); (190,2); (214,4); (122,3); (184,7); (99,6); (249,5); (144,0); (245,2); (81,1); (33,3); (113,6); (220,0);
  (139,4); (78,5); (237,7); (205,7); (196,0); (172,1); (40,5); (219,4); (154,3); (227,6); (126,1); (173,5); (112,0); (188,6); (41,7); (250,3); (111,2); (163,4); (142,3); (136,2);
  (100,4); (241,0); (134,6); (159,7); (193,5); (152,1); (38,4); (162,0); (242,5); (88,6); (62,1); (130,3); (15,2); (157,7); (3,7); (185,6); (192,0); (90,3); (4,5); (21,1);
  (44,2); (206,4); (79,7); (22,5); (7,3); (119,2); (236,6); (226,0); (94,1); (121,4); (114,0); (125,3); (143,6); (239,5); (247,7); (45,1); (201,2); (175,4); (238,5); (28,6);
  (217,0); (123,1); (69,2); (74,3); (68,7); (200,4); (80,2); (24,6); (187,1); (253,7); (218,0); (146,4); (102,3); (32,5); (197,0); (63,1); (49,3); (141,4); (164,5); (212,6);
  (156,2); (170,7); (25,4); (196,2); (4,1); (89,7); (20,2); (248,3); (47,2); (130,7); (64,6); (65,2); (120,3); (112,1); (23,7); (129,7); (157,3); (140,1); (231,2)].

Notation P := 0x1f5.
(** sum of the columns the bits of x select *)
Fixpoint cols (l : list N) (x : N) : N :=
  match l with [] => 0 | c :: l' => N.lxor (if N.odd x then c else 0) (cols l' (N.div2 x)) end.
Definition psi (z : N) : N := cols [0x85; 0xb; 0x16; 0x2c; 0x58; 0xb0; 0x61; 0xc2] (N.lxor z 0xd3).
Definition phi (x : N) : N := N.lxor (sm4_A x) 0xd3.
Definition A_cols : list N := map sm4_A basis.
Definition phi_fast (x : N) : N := N.lxor (cols [0xcb; 0x97; 0x2f; 0x5e; 0xbc; 0x79; 0xf2; 0xe5] x) 0xd3.
(** column j of a matrix given by its rows, first row most significant *)
Fixpoint column (rows : list N) (acc j : N) : N :=
  match rows with [] => acc | r :: rows' => column rows' (if N.testbit r j then N.succ_double acc else N.double acc) j end.
(** x^(2^k) at phi and psi of 0, 1, 2, 4, .. *)
Definition f_phi : list (list N) := Eval vm_compute in map (fun k => map (fun x => frob P k (phi x)) (0 :: basis)) (seq 0 8).
Definition f_psi : list (list N) := Eval vm_compute in map (fun k => map (fun x => frob P k (psi x)) (0 :: basis)) (seq 0 9).
Definition js : list N := [0; 1; 2; 3; 4; 5; 6; 7].
(** the values of an affine map at 0, 1, 2, 4, .. *)
Definition values (a : aff) : list N := a_vec a :: map (fun j => N.lxor (column (a_mat a) 0 j) (a_vec a)) js.
Fixpoint list_eqb (l m : list N) : bool :=
  match l, m with [] , [] => true | x :: l', y :: m' => (x =? y) && list_eqb l' m' | _, _ => false end.
Definition shape (a : aff) : bool := Nat.eqb (length (a_mat a)) 8 && forallb (fun r => r <? 256) (a_mat a) && (a_vec a <? 256).
Definition pair_check (q : (aff * aff) * (N * N)) : bool :=
  let '((A, B), (a, k)) := q in
  let k := N.to_nat k in
  shape A && shape B && (0 <? a) && (a <? 256) && Nat.leb k 7 &&
  list_eqb (map phi_fast (values A)) (map (gf8_mul P a) (nth k f_phi [])) &&
  list_eqb (values B) (map (fun t => phi_fast (gf8_mul P (frob P (8 - k) a) t)) (nth (8 - k) f_psi [])).
Lemma pairs_checked : forallb pair_check (combine (combine SE_A SE_B) certs) = true.
Proof. vm_cast_no_check (eq_refl true). Qed.
Lemma lengths_checked : (Nat.eqb (length SE_A) (length SE_B) && Nat.eqb (length certs) (length SE_A) && (N.of_nat (length SE_A) =? 2039)) = true.
Proof. vm_compute. reflexivity. Qed.

(** ** From the check to the relation *)
Lemma list_eqb_eq l : forall m, list_eqb l m = true -> l = m.
Proof.
  induction l as [|x l IH]; intros [|y m] H; try reflexivity; try discriminate. cbn [list_eqb] in H.
  apply andb_prop in H. destruct H as [E H]. apply N.eqb_eq in E. subst. f_equal. now apply IH.
Qed.
Lemma column_bit rows j : forall acc i, N.testbit (column rows acc j) i =
  if i <? N.of_nat (length rows) then N.testbit (nth (length rows - 1 - N.to_nat i) rows 0) j else N.testbit acc (i - N.of_nat (length rows)).
Proof.
  induction rows as [|r rows IH]; intros acc i; cbn [column length].
  - change (N.of_nat 0) with 0. rewrite N.sub_0_r. destruct (N.ltb_spec i 0); [lia|reflexivity].
  - rewrite IH. destruct (N.ltb_spec i (N.of_nat (length rows))) as [L|L].
    + destruct (N.ltb_spec i (N.of_nat (S (length rows)))) as [L'|L']; [|lia].
      replace (S (length rows) - 1 - N.to_nat i)%nat with (S (length rows - 1 - N.to_nat i))%nat by lia. reflexivity.
    + destruct (N.ltb_spec i (N.of_nat (S (length rows)))) as [L'|L'].
      * replace (i - N.of_nat (length rows)) with 0 by lia. replace (S (length rows) - 1 - N.to_nat i)%nat with 0%nat by lia. cbn [nth].
        destruct (N.testbit r j); [rewrite N.succ_double_spec; apply N.testbit_odd_0|rewrite N.double_spec; apply N.testbit_even_0].
      * replace (i - N.of_nat (length rows)) with (N.succ (i - N.of_nat (S (length rows)))) by lia.
        destruct (N.testbit r j); [rewrite N.succ_double_spec; apply N.testbit_odd_succ; lia|rewrite N.double_spec; apply N.testbit_even_succ; lia].
Qed.
Lemma column_spec M j : matrix 8 M -> (j < 8)%nat -> MatMulVec 8 M (2 ^ N.of_nat j) = column M 0 (N.of_nat j).
Proof.
  intros HM J. pose proof HM as [LM _]. replace (2 ^ N.of_nat j) with (get (idM 8) (7 - j)).
  - apply (bit_ext 8); [now apply vector_mulv; [apply size8|]|..].
    + apply vector_bits. intros i I. rewrite column_bit, LM. destruct (N.ltb_spec i (N.of_nat 8)); [lia|]. apply N.bits_0.
    + intros i I. rewrite mulv_id by (auto using size8; lia). unfold bit at 1. rewrite column_bit, LM.
      destruct (N.ltb_spec (N.of_nat (8 - 1 - i)) (N.of_nat 8)); [|lia]. unfold entry, bit. replace (8 - 1 - (7 - j))%nat with j by lia.
      replace (8 - 1 - N.to_nat (N.of_nat (8 - 1 - i)))%nat with i by lia. reflexivity.
  - rewrite idM_spec by (auto using size8; lia). f_equal. lia.
Qed.
Lemma shape_affine a : shape a = true -> affine 8 a.
Proof.
  unfold shape. intros H. apply andb_prop in H. destruct H as [H V]. apply andb_prop in H. destruct H as [L F].
  apply Nat.eqb_eq in L. apply N.ltb_lt in V. split; [split|exact V]; [exact L|]. apply Forall_forall. intros r R. rewrite forallb_forall in F. apply N.ltb_lt, F, R.
Qed.
Lemma values_spec a : affine 8 a -> values a = map (affineU 8 a) (0 :: basis).
Proof.
  intros [M V]. unfold values. cbn [map js basis]. unfold affineU. rewrite (mulv_0 8) by (auto using size8). rewrite N.lxor_0_l.
  rewrite <- (column_spec _ 0), <- (column_spec _ 1), <- (column_spec _ 2), <- (column_spec _ 3), <- (column_spec _ 4), <- (column_spec _ 5),
    <- (column_spec _ 6), <- (column_spec _ 7) by (auto; lia). reflexivity.
Qed.
(** equal at 0 and the unit vectors *)
Definition affine8 (f : N -> N) : Prop := forall a b, byte a -> byte b -> f (N.lxor a b) = N.lxor (N.lxor (f a) (f b)) (f 0).
Lemma affine_ext f g : affine8 f -> affine8 g -> map f (0 :: basis) = map g (0 :: basis) -> forall x, byte x -> f x = g x.
Proof.
  intros F G E x X. assert (E0 : f 0 = g 0) by (cbn [map] in E; congruence).
  assert (EB : forall y, In y basis -> f y = g y) by (intros y Y; apply (ext_in_map E); now right).
  assert (H : N.lxor (f x) (f 0) = N.lxor (g x) (g 0)).
  { apply (byte_ext (fun x => N.lxor (f x) (f 0)) (fun x => N.lxor (g x) (g 0))); auto.
    - intros a b A B. rewrite F by auto. xors.
    - intros a b A B. rewrite G by auto. xors.
    - intros y Y. now rewrite E0, (EB y Y). }
  apply (f_equal (fun u => N.lxor u (f 0))) in H. rewrite N.lxor_assoc, N.lxor_nilpotent, N.lxor_0_r in H. rewrite H, <- E0.
  now rewrite N.lxor_assoc, N.lxor_nilpotent, N.lxor_0_r.
Qed.
Lemma affineU_affine8 a : affine 8 a -> affine8 (affineU 8 a).
Proof. intros [M V] x y _ _. unfold affineU. rewrite mulv_lxor, mulv_0 by auto using size8. xors. Qed.
Lemma affineU_byte a x : affine 8 a -> byte (affineU 8 a x).
Proof. intros A. now apply (vector_affineU 8); [apply size8|]. Qed.
Lemma cols_lxor l : forall x y, cols l (N.lxor x y) = N.lxor (cols l x) (cols l y).
Proof.
  induction l as [|c l IH]; intros x y; cbn [cols]; [reflexivity|]. rewrite !N.div2_spec, N.shiftr_lxor, IH. rewrite <- !N.bit0_odd, N.lxor_spec.
  destruct (N.testbit x 0), (N.testbit y 0); cbn [xorb]; xors.
Qed.
Lemma cols_0 l : cols l 0 = 0.
Proof. induction l as [|c l IH]; cbn [cols]; [reflexivity|]. exact IH. Qed.
Lemma cols_byte l : Forall byte l -> forall x, byte (cols l x).
Proof. induction 1 as [|c l C L IH]; intros x; cbn [cols]; [reflexivity|]. apply byte_lxor; [destruct (N.odd x); [exact C|reflexivity]|apply IH]. Qed.
Lemma parity_upto_lxor n x y : parity_upto n (N.lxor x y) = xorb (parity_upto n x) (parity_upto n y).
Proof. induction n as [|n IH]; [reflexivity|]. cbn [parity_upto]. rewrite N.lxor_spec, IH. now destruct (N.testbit x (N.of_nat n)), (N.testbit y (N.of_nat n)), (parity_upto n x), (parity_upto n y). Qed.
Lemma land_lxor_r a x y : N.land a (N.lxor x y) = N.lxor (N.land a x) (N.land a y).
Proof. apply N.bits_inj. intros i. rewrite N.land_spec, !N.lxor_spec, !N.land_spec. now destruct (N.testbit a i), (N.testbit x i), (N.testbit y i). Qed.
Lemma sm4_A_bits (f : nat -> bool) i : N.testbit (fold_right (fun (k : nat) (acc : N) => N.lor (if f k then 2 ^ N.of_nat k else 0) acc) 0 (seq 0 8)) i = (i <? 8) && f (N.to_nat i).
Proof.
  assert (G : forall n s : nat, N.testbit (fold_right (fun (k : nat) (acc : N) => N.lor (if f k then 2 ^ N.of_nat k else 0) acc) 0 (seq s n)) i
     = ((N.of_nat s <=? i) && (i <? N.of_nat (s + n)%nat)) && f (N.to_nat i)).
  { induction n as [|n IH]; intros s; cbn [seq fold_right].
    - rewrite N.bits_0. destruct (N.leb_spec (N.of_nat s) i), (N.ltb_spec i (N.of_nat (s + 0))); try reflexivity. lia.
    - rewrite N.lor_spec, IH. replace (N.testbit (if f s then 2 ^ N.of_nat s else 0) i) with (f s && (i =? N.of_nat s)).
      + destruct (N.eqb_spec i (N.of_nat s)) as [->|NE].
        * rewrite Nat2N.id. destruct (N.leb_spec (N.of_nat (S s)) (N.of_nat s)), (N.leb_spec (N.of_nat s) (N.of_nat s)), (N.ltb_spec (N.of_nat s) (N.of_nat (s + S n))); try lia.
          cbn [andb]. now rewrite andb_true_r, orb_false_r.
        * rewrite andb_false_r. cbn [orb]. f_equal.
          destruct (N.leb_spec (N.of_nat (S s)) i), (N.leb_spec (N.of_nat s) i), (N.ltb_spec i (N.of_nat (S s + n))), (N.ltb_spec i (N.of_nat (s + S n))); try reflexivity; lia.
      + destruct (f s); [rewrite N.pow2_bits_eqb, N.eqb_sym; reflexivity|now rewrite N.bits_0]. }
  rewrite G. change (N.of_nat 0) with 0. change (N.of_nat (0 + 8)) with 8. destruct (N.leb_spec 0 i); [reflexivity|lia].
Qed.
Lemma sm4_A_lxor x y : sm4_A (N.lxor x y) = N.lxor (sm4_A x) (sm4_A y).
Proof.
  apply N.bits_inj. intros i. rewrite N.lxor_spec. unfold sm4_A. rewrite !(sm4_A_bits (fun k => parity_upto 8 (N.land (rot8 0xa7 k) _))).
  rewrite land_lxor_r, parity_upto_lxor. now destruct (i <? 8).
Qed.
Lemma phi_affine : affine8 phi.
Proof. intros x y _ _. unfold phi. rewrite sm4_A_lxor. change (sm4_A 0) with 0. xors. Qed.
Lemma phi_fast_phi x : byte x -> phi_fast x = phi x.
Proof.
  apply affine_ext; [|apply phi_affine|vm_compute; reflexivity]. intros a b _ _. unfold phi_fast. rewrite cols_lxor, cols_0. xors.
Qed.
Lemma phi_byte x : byte (phi x).
Proof.
  unfold phi. apply byte_lxor; [|reflexivity]. assert (V : vector 8 (sm4_A x)); [|exact V]. apply vector_bits. intros i I. unfold sm4_A.
  rewrite sm4_A_bits. change (N.of_nat 8) with 8 in I. destruct (N.ltb_spec i 8); [lia|reflexivity].
Qed.
Lemma psi_affine : affine8 psi.
Proof. intros x y _ _. unfold psi. rewrite <- (cols_lxor _ (N.lxor x 0xd3) (N.lxor y 0xd3)), <- cols_lxor. f_equal. xors. Qed.
Lemma psi_byte x : byte (psi x).
Proof. apply cols_byte. repeat constructor. Qed.
Lemma psi_phi x : byte x -> psi (phi x) = x.
Proof.
  apply (affine_ext (fun x => psi (phi x)) (fun x => x)); [|intros a b _ _; now rewrite N.lxor_0_r|vm_compute; reflexivity].
  intros a b A B. rewrite phi_affine by auto. rewrite psi_affine by (auto using byte_lxor, phi_byte). rewrite psi_affine by auto using phi_byte. xors.
Qed.
Lemma poly_in : In P polys. Proof. now left. Qed.
Lemma std_sbox_phi x : std_sbox x = phi (gf8_inv P (phi x)).
Proof. unfold std_sbox, phi. reflexivity. Qed.
Local Opaque gf8_mul gf8_inv.
Lemma mul_affine8 a f : affine8 f -> affine8 (fun x => gf8_mul P a (f x)).
Proof. intros F x y X Y. rewrite F by auto. now rewrite !mul_lxor_r. Qed.
Lemma frob_affine8 k f : (forall x, byte (f x)) -> affine8 f -> affine8 (fun x => frob P k (f x)).
Proof. intros B F x y X Y. rewrite F by auto. rewrite !(frob_lxor P poly_in) by auto using byte_lxor. reflexivity. Qed.
Lemma phi_affine8 f : (forall x, byte (f x)) -> affine8 f -> affine8 (fun x => phi (f x)).
Proof. intros B F x y X Y. rewrite F by auto. rewrite !phi_affine by auto using byte_lxor. xors. Qed.

Lemma f_phi_spec : f_phi = map (fun k => map (fun x => frob P k (phi x)) (0 :: basis)) (seq 0 8).
Proof. vm_compute. reflexivity. Qed.
Lemma f_psi_spec : f_psi = map (fun k => map (fun x => frob P k (psi x)) (0 :: basis)) (seq 0 9).
Proof. vm_compute. reflexivity. Qed.
Lemma nth_map_seq {A} (f : nat -> list A) n k : (k < n)%nat -> nth k (map f (seq 0 n)) [] = f k.
Proof. intros K. rewrite nth_indep with (d' := f 0%nat) by (rewrite map_length, seq_length; exact K). rewrite map_nth, seq_nth by exact K. reflexivity. Qed.
Lemma pair_check_spec A B a k : pair_check ((A, B), (a, k)) = true ->
  affine 8 A /\ affine 8 B /\ forall x, byte x -> affineU 8 B (std_sbox (affineU 8 A x)) = std_sbox x.
Proof.
  unfold pair_check. cbv zeta. set (k' := N.to_nat k). intros H.
  apply andb_prop in H. destruct H as [H EB]. apply andb_prop in H. destruct H as [H EA]. apply andb_prop in H. destruct H as [H K].
  apply andb_prop in H. destruct H as [H A256]. apply andb_prop in H. destruct H as [H A0]. apply andb_prop in H. destruct H as [SA SB].
  apply shape_affine in SA, SB. apply Nat.leb_le in K. apply N.ltb_lt in A0, A256. apply list_eqb_eq in EA, EB.
  split; [exact SA|]. split; [exact SB|]. assert (BA : byte a) by exact A256.
  rewrite f_phi_spec, nth_map_seq in EA by lia. rewrite f_psi_spec, nth_map_seq in EB by lia. rewrite values_spec in EA, EB by auto.
  rewrite !map_map in EA. rewrite map_map in EB.
  assert (H1 : forall x, byte x -> phi (affineU 8 A x) = gf8_mul P a (frob P k' (phi x))).
  { apply affine_ext.
    - apply phi_affine8; [intros; now apply affineU_byte|now apply affineU_affine8].
    - apply mul_affine8, frob_affine8; [apply phi_byte|apply phi_affine].
    - rewrite <- EA. apply map_ext. intros x. symmetry. apply phi_fast_phi. now apply affineU_byte. }
  pose proof (frob_byte P poly_in (8 - k') a BA) as BF. set (b := frob P (8 - k') a) in *.
  assert (H2 : forall z, byte z -> affineU 8 B z = phi (gf8_mul P b (frob P (8 - k') (psi z)))).
  { apply affine_ext.
    - now apply affineU_affine8.
    - apply phi_affine8; [intros; apply (m_byte P poly_in); exact BF|]. apply mul_affine8, frob_affine8; [apply psi_byte|apply psi_affine].
    - rewrite EB. apply map_ext. intros x. apply phi_fast_phi. apply (m_byte P poly_in). exact BF. }
  intros x X. rewrite !std_sbox_phi. rewrite H1 by exact X. set (y := phi x). assert (Y : byte y) by apply phi_byte.
  rewrite (inv_mul P poly_in) by auto using (frob_byte P poly_in). rewrite (inv_frob P poly_in) by exact Y.
  pose proof (inv_byte P poly_in y Y) as IY. set (w := gf8_inv P y) in *. pose proof (inv_byte P poly_in a BA) as IA. set (a' := gf8_inv P a) in *.
  rewrite H2 by apply phi_byte. f_equal. rewrite psi_phi by (apply (m_byte P poly_in); exact IA). unfold b.
  rewrite <- (frob_mul P poly_in) by (auto using (m_byte P poly_in), (frob_byte P poly_in)).
  rewrite <- (m_assoc P poly_in) by (auto using (frob_byte P poly_in)). unfold a'. rewrite (m_inv P poly_in) by (auto; lia).
  rewrite (m_one_l P poly_in) by auto using (frob_byte P poly_in). rewrite frob_add. replace (8 - k' + k')%nat with 8%nat by lia. now apply (frob_8 P poly_in).
Qed.
Lemma length_SE : length SE_A = N.to_nat 2039 /\ length SE_B = N.to_nat 2039 /\ length certs = N.to_nat 2039.
Proof.
  pose proof lengths_checked as H. apply andb_prop in H. destruct H as [H C]. apply andb_prop in H. destruct H as [E1 E2].
  apply Nat.eqb_eq in E1, E2. apply N.eqb_eq in C. lia.
Qed.
(** every stored pair *)
Lemma stored_pair n : (n < 2039)%N -> let A := nth (N.to_nat n) SE_A (mkaff [] 0) in let B := nth (N.to_nat n) SE_B (mkaff [] 0) in
  affine 8 A /\ affine 8 B /\ forall x, byte x -> affineU 8 B (std_sbox (affineU 8 A x)) = std_sbox x.
Proof.
  intros L A B. destruct length_SE as (LA & LB & LC). set (d := mkaff [] 0) in *.
  destruct (nth (N.to_nat n) certs (0, 0)) as [a k] eqn:EC. apply (pair_check_spec A B a k).
  pose proof pairs_checked as H. rewrite forallb_forall in H. apply H. rewrite <- EC. unfold A, B. rewrite <- (combine_nth SE_A SE_B) by lia.
  rewrite <- (combine_nth (combine SE_A SE_B) certs) by (rewrite combine_length; lia). apply nth_In. rewrite !combine_length. lia.
Qed.
