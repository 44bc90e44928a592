-Q theories Verif
theories/Base.v
theories/USpec.v
theories/UFacts.v
theories/UBig.v
theories/UAddSub.v
theories/UMul.v
theories/UDiv.v
theories/UEq.v
theories/UFun.v
theories/UPow.v
theories/USqrt.v
theories/UPrime.v
theories/SSpec.v
theories/UStr.v
theories/UStrP.v
theories/ULog.v
theories/USci.v
theories/UMisc.v
theories/Props_U.v
theories/Props_U2.v
theories/BBig.v
theories/BSpec.v
theories/BEq.v
theories/Props_B.v
theories/RBig.v
theories/RSpec.v
theories/REq.v
theories/RShrink.v
theories/Props_R.v
theories/RStr.v
theories/RStrP.v
theories/Props_R2.v
theories/RIeee.v
theories/FSpec.v
theories/RIeeeP.v
theories/Props_R3.v
theories/RTab.v
theories/RIter.v
theories/ISpec.v
theories/RIterP.v
theories/RIterX.v
theories/RIterL.v
theories/RIterT.v
theories/Props_R4.v
theories/MMat.v
theories/MSpec.v
theories/MDet.v
theories/MEq.v
theories/MInv.v
theories/Props_M.v
theories/Props_M2.v
theories/PPoly.v
theories/PSpec.v
theories/PEq.v
theories/PPts.v
theories/Props_P.v
theories/XNum.v
theories/XSpec.v
theories/XP1.v
theories/XP2.v
theories/XP3.v
theories/XP4.v
theories/XP5.v
theories/XP6.v
theories/XP7.v
theories/XP8.v
theories/XP9.v
theories/Props_X1.v
theories/Props_X2.v
theories/XFun.v
theories/CSpec.v
theories/XC13.v
theories/XPow.v
theories/XSqrt.v
theories/Props_X3.v
theories/RReal.v
theories/RReal2.v
theories/RReal3.v
theories/RReal4.v
theories/XReal.v
theories/Props_R5.v
theories/RFmt.v
theories/RFmtP.v
theories/RFmtT.v
theories/RFmtQ.v
theories/RFmtR.v
theories/RFmtS.v
theories/RFmtU.v
theories/RFmtV.v
theories/RFmtW.v
theories/Props_R6.v
theories/XFast.v
theories/XErr.v
theories/XLog.v
theories/XPw.v
theories/Props_X4.v
theories/XTrig.v
theories/XTrig2.v
theories/Props_X5.v
theories/XAtrig.v
theories/Props_X6.v
theories/XTxt.v
theories/XTxtS.v
theories/XTxtP.v
theories/XTxtQ.v
theories/XTxtR.v
theories/XTxtT.v
theories/XTxtU.v
theories/Props_X7.v
theories/PTxtS.v
theories/PTxtP.v
theories/PTxtQ.v
theories/Props_P2.v
theories/Props_B2.v
theories/UMore.v
theories/UMoreP.v
theories/UExpR.v
theories/Props_U3.v
theories/RCbrt.v
theories/RCbrtP.v
theories/RCbrtR.v
theories/Props_R7.v
theories/Props_R8.v
theories/Props_R9.v
theories/Props_R10.v
