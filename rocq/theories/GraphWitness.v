(* A connected graph with 235 vertices on which the search for a pseudo-peripheral vertex does not
   converge within its ten iterations (found by computer search). *)
From Coq Require Import List.
Import ListNotations.

Definition slow_edges : list (nat * nat) := [
  (0,10);(1,11);(2,12);(3,13);(4,14);(5,15);(6,16);(7,18);(8,19);(9,20);(10,21);(10,22);
  (11,23);(12,25);(13,26);(14,27);(14,28);(15,29);(16,30);(17,31);(17,32);(18,33);(19,34);
  (20,35);(21,37);(21,230);(22,36);(22,38);(23,39);(23,40);(24,41);(24,42);(25,41);(25,43);
  (25,44);(26,45);(26,46);(27,49);(28,48);(28,50);(28,51);(29,52);(30,54);(31,55);(33,56);
  (34,57);(35,58);(36,222);(37,59);(37,225);(38,60);(38,228);(39,63);(40,62);(41,64);(42,65);
  (43,66);(44,67);(45,69);(46,68);(46,71);(47,69);(47,72);(48,73);(49,74);(50,75);(51,76);
  (52,77);(53,78);(53,79);(54,80);(55,82);(56,83);(57,84);(58,85);(59,87);(60,88);(60,89);
  (61,90);(61,93);(62,90);(62,91);(62,207);(63,206);(63,216);(64,94);(64,95);(65,96);(66,97);
  (67,227);(68,70);(70,99);(71,98);(71,214);(72,100);(72,101);(73,102);(74,103);(75,104);
  (76,105);(77,106);(78,107);(79,108);(80,109);(80,110);(81,107);(81,110);(82,111);(83,112);
  (83,113);(84,114);(84,115);(85,116);(86,119);(86,171);(87,120);(87,233);(88,179);(88,213);
  (89,198);(90,123);(91,184);(92,199);(92,229);(93,181);(94,205);(95,127);(95,129);(96,197);
  (96,219);(97,131);(98,134);(99,190);(100,211);(101,136);(102,137);(102,234);(103,138);
  (103,188);(104,140);(105,170);(106,145);(108,148);(109,146);(110,149);(110,150);(111,151);
  (111,152);(112,156);(113,158);(114,161);(114,162);(115,160);(116,163);(116,164);(116,165);
  (117,166);(117,167);(118,167);(118,168);(119,127);(119,130);(119,169);(120,135);(121,219);
  (121,232);(122,132);(122,167);(123,133);(123,135);(123,169);(124,133);(124,151);(125,142);
  (125,145);(126,160);(126,178);(128,146);(128,175);(128,193);(129,156);(129,200);(130,137);
  (131,186);(132,170);(133,143);(133,178);(134,171);(135,145);(135,177);(136,166);(136,172);
  (136,173);(138,153);(139,147);(139,164);(139,175);(140,147);(141,182);(141,196);(142,176);
  (143,187);(144,179);(144,189);(145,202);(146,155);(148,162);(149,181);(150,183);(152,185);
  (153,184);(153,186);(154,190);(154,191);(155,191);(156,192);(157,192);(157,194);(158,193);
  (158,209);(159,195);(159,196);(161,197);(163,198);(165,199);(165,200);(168,201);(169,233);
  (170,218);(171,223);(172,215);(173,178);(174,197);(174,204);(176,205);(177,206);(178,207);
  (180,193);(180,208);(182,209);(183,210);(183,211);(185,212);(186,212);(186,213);(187,214);
  (188,212);(189,214);(191,200);(194,217);(195,218);(200,220);(201,221);(202,217);(203,212);
  (203,225);(204,222);(206,229);(208,216);(209,223);(210,224);(215,225);(218,227);(220,228);
  (224,226);(226,230);(227,231);(231,233);(232,234)].
