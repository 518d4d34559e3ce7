-Q theories Verif
theories/Base.v
theories/CutModel.v
theories/CutProofs1.v
theories/CutProofs2.v
theories/CutProofs3.v
theories/CutProofs4.v
theories/CutProofs5.v
theories/CutProofs6.v
theories/CutProofs7.v
theories/CutProofs8.v
theories/CutProofs9.v
theories/CutProps.v
theories/CutSpec.v
theories/Dft.v
theories/DidvModel.v
theories/DidvProofs1.v
theories/DidvProofs10.v
theories/DidvProofs11.v
theories/DidvProofs2.v
theories/DidvProofs3.v
theories/DidvProofs4.v
theories/DidvProofs5.v
theories/DidvProofs6.v
theories/DidvProofs7.v
theories/DidvProofs8.v
theories/DidvProofs9.v
theories/DidvProps.v
theories/DidvSpec.v
theories/FilterModel.v
theories/FilterProofs.v
theories/FilterProofs2.v
theories/FilterProofs3.v
theories/FilterProps.v
theories/FilterSpec.v
theories/FloatBridge.v
theories/FloatModel.v
theories/IvModel.v
theories/IvProofs1.v
theories/IvProofs2.v
theories/IvProofs3.v
theories/IvProofs4.v
theories/IvProofs5.v
theories/IvProofs6.v
theories/IvProofs7.v
theories/IvProofs8.v
theories/IvProps.v
theories/IvProps2.v
theories/IvSpec.v
theories/ListLemmas.v
theories/NoiseModel.v
theories/NoiseProofs1.v
theories/NoiseProofs2.v
theories/NoiseProofs3.v
theories/NoiseProofs4.v
theories/NoiseProofs5.v
theories/NoiseProofs6.v
theories/NoiseProofs7.v
theories/NoiseProps.v
theories/NoiseSpec.v
theories/NonlinModel.v
theories/NonlinProofs1.v
theories/NonlinProofs2.v
theories/NonlinProofs3.v
theories/NonlinProofs4.v
theories/NonlinProofs5.v
theories/NonlinProofs6.v
theories/NonlinProofs7.v
theories/NonlinProps.v
theories/NonlinSpec.v
theories/NsmbModel.v
theories/NsmbProofs1.v
theories/NsmbProofs2.v
theories/NsmbProofs3.v
theories/NsmbProofs4.v
theories/NsmbProofs5.v
theories/NsmbProofs6.v
theories/NsmbProofs7.v
theories/NsmbProofs8.v
theories/NsmbProofs9.v
theories/NsmbProps.v
theories/NsmbSpec.v
theories/NsmbTtlModel.v
theories/NsmbTtlProofs1.v
theories/NsmbTtlProofs2.v
theories/NsmbTtlProofs3.v
theories/NsmbTtlProps.v
theories/OFFreeModel.v
theories/OFModel.v
theories/OFProofs1.v
theories/OFProofs10.v
theories/OFProofs11.v
theories/OFProofs2.v
theories/OFProofs3.v
theories/OFProofs4.v
theories/OFProofs5.v
theories/OFProofs6.v
theories/OFProofs7.v
theories/OFProofs8.v
theories/OFProofs9.v
theories/OFProps.v
theories/OFSpec.v
theories/SimModel.v
theories/SimProofs1.v
theories/SimProofs2.v
theories/SimProofs3.v
theories/SimProps.v
theories/SimProps2.v
theories/SimSpec.v
theories/UtilsModel.v
theories/UtilsProofs1.v
theories/UtilsProofs2.v
theories/UtilsProofs3.v
theories/UtilsProofs4.v
theories/UtilsProofs5.v
theories/UtilsProps.v
theories/UtilsSpec.v
theories/WindowModel.v
theories/WindowProofs.v
theories/WindowProps.v
theories/WindowSpec.v
theories/PlotModel.v
theories/PlotSpec.v
theories/PlotProofs1.v
theories/PlotProofs2.v
theories/PlotProofs3.v
theories/PlotProofs4.v
theories/PlotProofs5.v
theories/PlotProofs6.v
theories/PlotProofs7.v
theories/PlotProps.v
theories/IvPlotModel.v
theories/IvPlotSpec.v
theories/IvPlotProofs.v
theories/IvPlotProofs2.v
theories/IvPlotProofs3.v
theories/IvPlotProps.v
theories/SimPlotModel.v
theories/SimPlotSpec.v
theories/SimPlotProofs.v
theories/SimPlotProofs2.v
theories/SimPlotProps.v
theories/DidvPlotModel.v
theories/DidvPlotSpec.v
theories/DidvPlotProofs1.v
theories/DidvPlotProofs2.v
theories/DidvPlotProofs3.v
theories/DidvPlotProofs4.v
theories/DidvPlotProofs5.v
theories/DidvPlotProps.v
theories/NsmbPlotModel.v
theories/NsmbPlotSpec.v
theories/NsmbPlotProofs1.v
theories/NsmbPlotProofs2.v
theories/NsmbPlotProps.v
theories/NonlinPlotModel.v
theories/NonlinPlotSpec.v
theories/NonlinPlotProofs.v
theories/NonlinPlotProofs2.v
theories/NonlinPlotProps.v
